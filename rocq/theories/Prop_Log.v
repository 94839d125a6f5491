(** * Prop_Log: C59-C62 — how the searches descend, and where the numbers in their trees come from. *)
From Coq Require Import Permutation.
From Verif Require Import Base F32 Tensor RoundFacts TttModel GameModel McModel McSpec GameFacts AlphaModel AlphaSpec AlphaInst AlphaApi AlphaApi3 McApi
  SelectSpec LogSpec AlphaLogSpec LogProof SelectProof LogApi NanFacts NumFacts SelectNum Witness.

(** C59.  In every search tree, if all scores are numbers, selection succeeds and goes down from
    the root, always to the child with the largest upper confidence bound (the last one among
    equals), until it meets a node without children or with an untried move. *)
Theorem C59_plain : forall (G : Game) ln s (st : store G) c, tree s st -> numbers (uct ln c) st ->
  exists j, select_leaf_node ln 0 st c = Ok j /\ descent (uct ln c) open st 0 j.
Proof. exact C59_plain_lemma. Qed.
Print Assumptions C59_plain.
(** C59.  During a plain search the scores are numbers: up to 2^24 iterations, for every logarithm
    and constant with [c * ln v >= 0]. *)
Theorem C59_numbers : forall (G : Game) ln s pl cfg r k st0 st r', (pl = -1 \/ pl = 1) -> (0 < sim_limit cfg)%nat ->
  mcts_init (G := G) s = Ok st0 -> mcts_loop ln k pl cfg (st0, r) = Ok (st, r') -> Z.of_nat k <= 2 ^ 24 ->
  (forall v, 1 <= v <= Z.of_nat k -> SFleb f0 (fmul (cfg_c cfg) (ln (f32_of_Z v))) = true) ->
  numbers (uct ln (cfg_c cfg)) st.
Proof. exact C59_numbers_lemma. Qed.
Print Assumptions C59_numbers.
(** C59.  The same for the network-guided search, with the formula that uses the priors. *)
Theorem C59_network : forall (G : Game) roots (st : store G) c g, forest roots st -> (g < length roots)%nat -> numbers (puct c) st ->
  exists j, alpha_select_leaf_node g st c = Ok j /\ descent (puct c) childless st g j.
Proof. exact C59_network_lemma. Qed.
Print Assumptions C59_network.
(** C59.  If the network's values lie between -1 and 1, the constant [c] is not negative and below
    2^74 and the counters stay below 2^24, the only scores of a batched search that may be no
    numbers are those of children whose prior is NaN, infinite or negative. *)
Theorem C59_network_numbers : forall G I, alpha_game G I -> forall tsum dirichlet nt cfg order ss r st r', net_ok G nt ->
  (forall k a rr, length (fst (dirichlet k a rr)) = k) -> (forall s, In s ss -> I s) -> Permutation order (seq 0 (length ss)) ->
  1 + Z.of_nat (iterations cfg) * Z.of_nat (S (length ss)) < 2 ^ 24 ->
  (forall x v, In v (data (net_value nt x)) -> at_most 1 v) -> sized 50 (cfg_c cfg) -> nonneg (cfg_c cfg) ->
  alpha_mcts_parallel tsum dirichlet nt cfg order [] ss r = Ok (st, r') ->
  forall i n c m, nth_error st i = Some n -> In c (n_children n) -> nth_error st c = Some m ->
  finite (n_policy m) -> nonneg (n_policy m) -> puct (cfg_c cfg) n m <> S754_nan.
Proof. exact C59_network_numbers_lemma. Qed.
Print Assumptions C59_network_numbers.
(** C59.  If no score of a node's children is a number, which happens when the network gives the
    valid moves no weight, the last child is taken. *)
Theorem C59_nan : forall (G : Game) roots (st : store G) c i n cs d, forest roots st -> nth_error st i = Some n -> n_children n = cs ++ [d] ->
  (forall e m, In e (n_children n) -> nth_error st e = Some m -> puct c n m = S754_nan) ->
  exists m, select_alpha i st c = Ok m /\ nth_error st d = Some m /\ n_idx m = d.
Proof. exact C59_nan_lemma. Qed.
Print Assumptions C59_nan.
(** a run of 12 iterations on the empty board, whose selection ends below the root *)
Definition run12 (pr : profile) : res (store (ttt_game pr) * rng) :=
  st0 <- mcts_init (G := ttt_game pr) ttt_new ;; mcts_loop ln0 12 (-1) (cfg3 12) (st0, rng0).
Lemma run12_inv pr st r' : run12 pr = Ok (st, r') -> exists st0, mcts_init (G := ttt_game pr) ttt_new = Ok st0
  /\ mcts_loop ln0 12 (-1) (cfg3 12) (st0, rng0) = Ok (st, r').
Proof. unfold run12, bind. destruct (mcts_init _) as [st0|]; [eauto|discriminate]. Qed.
Definition below (pr : profile) (st : store (ttt_game pr)) : bool :=
  match select_leaf_node ln0 0 st (cfg_c (cfg3 12)) with Ok (S _) => true | _ => false end.
Example C59_run : forall pr, exists st0 st r' j, mcts_init (G := ttt_game pr) ttt_new = Ok st0
  /\ mcts_loop ln0 12 (-1) (cfg3 12) (st0, rng0) = Ok (st, r') /\ (forall v, SFleb f0 (fmul (cfg_c (cfg3 12)) (ln0 (f32_of_Z v))) = true)
  /\ select_leaf_node ln0 0 st (cfg_c (cfg3 12)) = Ok (S j).
Proof.
  intros pr. destruct (run_ex _ _ (run12 pr) (below pr)) as (st & r' & E & H); [destruct pr; vm_compute; reflexivity|].
  destruct (run12_inv _ _ _ E) as (st0 & E0 & E1). unfold below in H.
  destruct (select_leaf_node ln0 0 st (cfg_c (cfg3 12))) as [[|j]|] eqn:Es; try discriminate H.
  exists st0, st, r', j. split; [exact E0|]. split; [exact E1|]. split; [intros v; change (SFleb f0 (fmul f1 f1) = true); vm_compute; reflexivity|exact Es].
Qed.
(** a batched search of two games whose scores are all numbers *)
Definition par2 (pr : profile) (w : list Z) (it : nat) : res (store (ttt_game pr) * rng) :=
  alpha_mcts_parallel (G := ttt_game pr) tsum0 dir0 (net0 w) (cfg0 it 4) [0; 1]%nat [] [ttt_new; one_left] rng0.
Definition child_scores (pr : profile) (st : store (ttt_game pr)) (P : f32 -> bool) : bool :=
  forallb (fun n => forallb (fun c => match nth_error st c with Some m => P (puct f1 n m) | None => true end) (n_children n)) st.
Definition is_nan (x : f32) : bool := match x with S754_nan => true | _ => false end.
Lemma child_scores_all pr st P : child_scores pr st P = true -> forall i n c m, nth_error st i = Some n -> In c (n_children n) -> nth_error st c = Some m -> P (puct f1 n m) = true.
Proof.
  intros H i n c m En Hc Em. unfold child_scores in H. rewrite forallb_forall in H. specialize (H n (nth_error_In _ _ En)).
  rewrite forallb_forall in H. specialize (H c Hc). rewrite Em in H. exact H.
Qed.
Example C59_network_run : forall pr, exists st r', par2 pr prefs 2 = Ok (st, r') /\ numbers (puct f1) st /\ alpha_select_leaf_node 0 st f1 = Ok 3%nat.
Proof.
  intros pr. destruct (run_ex _ _ (par2 pr prefs 2) (fun st => child_scores pr st (fun x => negb (is_nan x))
      && match alpha_select_leaf_node 0 st f1 with Ok j => (j =? 3)%nat | Panic _ => false end)) as (st & r' & E & H); [destruct pr; vm_compute; reflexivity|].
  apply andb_prop in H. destruct H as [H1 H2]. exists st, r'. split; [exact E|]. split.
  - intros i n c m En Hc Em Hn. pose proof (child_scores_all pr st _ H1 i n c m En Hc Em) as H. rewrite Hn in H. discriminate H.
  - destruct (alpha_select_leaf_node 0 st f1) as [j|]; [|discriminate H2]. apply Nat.eqb_eq in H2. subst j. reflexivity.
Qed.
(** a search of two games satisfies the hypotheses, and all priors are proper *)
Example C59_network_numbers_run : forall pr, alpha_game (ttt_game pr) ttt_pos /\ net_ok (ttt_game pr) (net0 prefs)
  /\ (forall x v, In v (data (net_value (net0 prefs) x)) -> at_most 1 v) /\ sized 50 (cfg_c (cfg0 2 4)) /\ nonneg (cfg_c (cfg0 2 4))
  /\ exists st r', par2 pr prefs 2 = Ok (st, r') /\ forall n, In n st -> finite (n_policy n) /\ nonneg (n_policy n).
Proof.
  intros pr. split; [apply ttt_alpha|]. split; [apply net0_ok; reflexivity|]. split; [intros x v Hv; apply repeat_spec in Hv; subst v; exact Logic.I|].
  split; [vm_compute; split; congruence|]. split; [reflexivity|].
  destruct (run_ex _ _ (par2 pr prefs 2) (fun st => forallb (fun n => match n_policy n with S754_zero _ => true | S754_finite s _ _ => negb s | _ => false end) st))
    as (st & r' & E & H); [destruct pr; vm_compute; reflexivity|].
  exists st, r'. split; [exact E|]. rewrite forallb_forall in H. intros n Hn. specialize (H n Hn).
  destruct (n_policy n) as [s|s| |[] m e]; try discriminate H; split; constructor.
Qed.
(** a network without any weights: all scores are NaN; the nine moves of the first game are nodes
    2 to 10 and node 10 is selected *)
Example C59_nan_run : forall pr, exists st r', par2 pr (repeat 0 9) 0 = Ok (st, r')
  /\ (forall i n c m, nth_error st i = Some n -> In c (n_children n) -> nth_error st c = Some m -> puct f1 n m = S754_nan)
  /\ alpha_select_leaf_node 0 st f1 = Ok 10%nat.
Proof.
  intros pr. destruct (run_ex _ _ (par2 pr (repeat 0 9) 0) (fun st => child_scores pr st is_nan
      && match alpha_select_leaf_node 0 st f1 with Ok j => (j =? 10)%nat | Panic _ => false end)) as (st & r' & E & H); [destruct pr; vm_compute; reflexivity|].
  apply andb_prop in H. destruct H as [H1 H2]. exists st, r'. split; [exact E|]. split.
  - intros i n c m En Hc Em. pose proof (child_scores_all pr st _ H1 i n c m En Hc Em) as H. destruct (puct f1 n m); try discriminate H. reflexivity.
  - destruct (alpha_select_leaf_node 0 st f1) as [j|]; [|discriminate H2]. apply Nat.eqb_eq in H2. subst j. reflexivity.
Qed.

(** C60.  The priors in the trees of a batched search.  Below a root: the network's policy for
    that position, mixed with one sample of noise over all actions, restricted to the codes of the
    valid moves by multiplication and divided by its sum; the same sample serves all games.  Below
    any other node: the network's policy for the node's position, restricted and divided, without
    noise.  ([prior_ok] spells out the formulas.) *)
Theorem C60_priors : forall G I, alpha_game G I -> forall tsum dirichlet nt cfg order ss r st r', net_ok G nt ->
  (forall k a rr, length (fst (dirichlet k a rr)) = k) -> (forall s, In s ss -> I s) -> Permutation order (seq 0 (length ss)) ->
  alpha_mcts_parallel tsum dirichlet nt cfg order [] ss r = Ok (st, r') ->
  forall i n p pn, nth_error st i = Some n -> n_parent n = Some p -> nth_error st p = Some pn ->
    prior_ok nt tsum (dir_eps cfg) (fst (dirichlet (asize G) (dir_alpha cfg) r)) ss p (n_state pn) n.
Proof. exact C60_priors_lemma. Qed.
Print Assumptions C60_priors.
(** C61.  The values and visits in the trees of a batched search.  There is a list of reports such
    that the statistics of every node are the f32 sums of the reports made at the node or below it
    (roots start from one visit); each report is either the result of a finished game for the player
    on turn at the root of its tree, or what the network said about that node's own position, with no
    change of sign on the way up. *)
Theorem C61_values : forall G I, alpha_game G I -> forall tsum dirichlet nt cfg order ss r st r', net_ok G nt ->
  (forall k a rr, length (fst (dirichlet k a rr)) = k) -> (forall s, In s ss -> I s) -> Permutation order (seq 0 (length ss)) ->
  alpha_mcts_parallel tsum dirichlet nt cfg order [] ss r = Ok (st, r') ->
  exists log, (forall i v, In (i, v) log -> origin nt ss st i v)
    /\ forall j n, nth_error st j = Some n -> exists vs, reported st j log vs
         /\ n_visits n = total (if (j <? length ss)%nat then f1 else f0) (map (fun _ => f1) vs) /\ n_value n = total f0 vs.
Proof. exact C61_values_lemma. Qed.
Print Assumptions C61_values.
(** a search of two games satisfies the hypotheses; the second one meets a finished position *)
Example C60_run : forall pr, alpha_game (ttt_game pr) ttt_pos /\ net_ok (ttt_game pr) (net0 prefs) /\ (forall k a rr, length (fst (dir0 k a rr)) = k)
  /\ (forall s, In s [ttt_new; one_left] -> ttt_pos s) /\ Permutation [0; 1]%nat (seq 0 2)
  /\ exists st r', par2 pr prefs 2 = Ok (st, r') /\ exists n w, In n st /\ g_winner (ttt_game pr) (n_state n) = Some w.
Proof.
  intros pr. split; [apply ttt_alpha|]. split; [apply net0_ok; reflexivity|]. split; [apply dir0_len|].
  split; [intros s [<-|[<-|[]]]; (split; [reflexivity|left; reflexivity])|]. split; [apply Permutation_refl|].
  destruct (run_ex _ _ (par2 pr prefs 2) (fun st => existsb (fun n => match g_winner (ttt_game pr) (n_state n) with Some _ => true | None => false end) st))
    as (st & r' & E & H); [destruct pr; vm_compute; reflexivity|].
  exists st, r'. split; [exact E|]. apply existsb_exists in H. destruct H as (n & Hn & H). exists n.
  destruct (g_winner (ttt_game pr) (n_state n)) as [w|] eqn:Ew; [|discriminate H]. exists w. split; [exact Hn|reflexivity].
Qed.

(** C62.  After [k] iterations of the plain search there is a list of [k] nodes, the evaluated
    ones in order: every unfinished node but the root exactly once, every node but the root at
    least once; the visits of a node are the number of entries at it or below it and its value is
    the sum of their results for the searching player, where an unfinished position counts 0. *)
Theorem C62_values : forall (G : Game) ln s pl cfg r k st0 st r', (pl = -1 \/ pl = 1) -> (0 < sim_limit cfg)%nat ->
  mcts_init (G := G) s = Ok st0 -> mcts_loop ln k pl cfg (st0, r) = Ok (st, r') -> Z.of_nat k <= 2 ^ 24 ->
  exists log : list nat, length log = k
    /\ (forall i n, nth_error st i = Some n -> g_winner G (n_state n) = None -> count_occ Nat.eq_dec log i = (if (i =? 0)%nat then 0 else 1)%nat)
    /\ (forall i, (0 < i < length st)%nat -> In i log)
    /\ (forall i, In i log -> (i < length st)%nat)
    /\ forall j n, nth_error st j = Some n -> exists sub, beneath st j log sub
         /\ n_visits n = f32_of_Z (Z.of_nat (length sub)) /\ n_value n = f32_of_Z (zsum (map (score_at pl st) sub)).
Proof. exact C62_values_lemma. Qed.
Print Assumptions C62_values.
(** C62.  So a search that has met no finished position knows nothing: all values are 0. *)
Theorem C62_blind : forall (G : Game) ln s pl cfg r k st0 st r', (pl = -1 \/ pl = 1) -> (0 < sim_limit cfg)%nat ->
  mcts_init (G := G) s = Ok st0 -> mcts_loop ln k pl cfg (st0, r) = Ok (st, r') -> Z.of_nat k <= 2 ^ 24 ->
  (forall n, In n st -> g_winner G (n_state n) = None) -> forall n, In n st -> n_value n = f0.
Proof. exact C62_blind_lemma. Qed.
Print Assumptions C62_blind.
(** the run above has met no finished position *)
Example C62_run : forall pr, exists st0 st r', mcts_init (G := ttt_game pr) ttt_new = Ok st0
  /\ mcts_loop ln0 12 (-1) (cfg3 12) (st0, rng0) = Ok (st, r') /\ (0 < sim_limit (cfg3 12))%nat
  /\ (forall n, In n st -> g_winner (ttt_game pr) (n_state n) = None) /\ (1 < length st)%nat.
Proof.
  intros pr. destruct (run_ex _ _ (run12 pr) (fun st => forallb (fun n => match g_winner (ttt_game pr) (n_state n) with Some _ => false | None => true end) st && (1 <? length st)%nat))
    as (st & r' & E & H); [destruct pr; vm_compute; reflexivity|].
  destruct (run12_inv _ _ _ E) as (st0 & E0 & E1). apply andb_prop in H. destruct H as [H1 H2]. exists st0, st, r'.
  split; [exact E0|]. split; [exact E1|]. split; [cbn; lia|]. split; [|apply Nat.ltb_lt; exact H2]. intros n Hn. rewrite forallb_forall in H1. specialize (H1 n Hn).
  destruct (g_winner (ttt_game pr) (n_state n)); [discriminate H1|reflexivity].
Qed.
(** a finished position does count: two in a row, the player on turn can win at once *)
Definition two_in_row : ttt := mkTtt (-1) [-1; -1; 0; 1; 1; 0; 0; 0; 0] 0.
Example C62_finished : forall pr, match (st0 <- mcts_init (G := ttt_game pr) two_in_row ;; mcts_loop ln0 5 (-1) (cfg3 5) (st0, rng0)) with
  | Ok (n :: _, _) => n_visits n = f32_of_Z 5 /\ n_value n = f32_of_Z 1
  | _ => False end.
Proof. intros [|]; vm_compute; split; reflexivity. Qed.
