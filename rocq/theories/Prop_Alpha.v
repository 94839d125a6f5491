(** * Prop_Alpha: C34-C38, C54 — the network-guided searches. *)
From Coq Require Import Permutation QArith.
From Verif Require Import Base F32 RoundFacts Tensor TttModel GameModel McModel McSpec GameFacts AlphaModel AlphaSpec AlphaInst AlphaApi
  SampleModel SumFacts ProbFacts VisitSpec SelfModel SelfSpec AlphaApi2 Witness AlphaApi3.
Open Scope Z_scope.

(** C34.  Whatever the network (of the right shapes), alpha_mcts panics on every unfinished
    position that has a valid move, and returns None exactly on the others. *)
Theorem C34_sequential_search : forall G I, alpha_game G I -> forall tsum dirichlet nt cfg, net_ok G nt ->
  forall s vm r, I s -> g_valid G s = Ok vm ->
  (g_winner G s = None -> vm <> [] -> exists p, alpha_mcts tsum dirichlet nt cfg s r = Panic p /\ p <> PFuel)
  /\ (g_winner G s <> None \/ vm = [] -> alpha_mcts tsum dirichlet nt cfg s r = Ok (None, r)).
Proof. exact C34_sequential_search_lemma. Qed.
Print Assumptions C34_sequential_search.
(** both games satisfy the hypotheses; the fresh TicTacToe board is such a position *)
Example C34_games : forall pr, alpha_game (ttt_game pr) ttt_pos /\ alpha_game (bg_game pr) bg_pos
  /\ net_ok (ttt_game pr) (net0 prefs) /\ ttt_pos ttt_new /\ ttt_check_winner ttt_new = None /\ ttt_valid_moves ttt_new <> []
  /\ alpha_mcts (G := ttt_game pr) tsum0 dir0 (net0 prefs) (cfg0 1 4) ttt_new rng0 = Panic PExplicit.
Proof.
  intros pr. split; [apply ttt_alpha|]. split; [apply bg_alpha|]. split; [apply net0_ok; reflexivity|].
  split; [split; [reflexivity|left; reflexivity]|]. split; [reflexivity|]. split; [discriminate|]. destruct pr; vm_compute; reflexivity.
Qed.

(** C34.  Even if priors could be read, an iteration that selects a finished node panics. *)
Theorem C34_finished_leaf : forall G tsum nt cfg (s : St G) st r i n,
  g_winner G s = None -> alpha_select_leaf_node 0 st (cfg_c cfg) = Ok i -> nth_error st i = Some n -> g_winner G (n_state n) <> None ->
  alpha_iter tsum nt cfg s (st, r) = Panic PUnwrap.
Proof. exact C34_finished_leaf_lemma. Qed.
Print Assumptions C34_finished_leaf.
(** a root with one child that ends the game *)
Definition last_child (pr : profile) : store (ttt_game pr) :=
  [mkNode (G := ttt_game pr) one_left 0 None [1]%nat f1 f0 f0 None [];
   mkNode (G := ttt_game pr) (mkTtt 1 [-1; 1; -1; -1; 1; 1; 1; -1; -1] 0) 1 (Some 0%nat) [] f0 f0 f1 (Some 8) []].
Example C34_finished_run : forall pr, exists n, ttt_check_winner one_left = None
  /\ alpha_select_leaf_node 0 (last_child pr) (cfg_c (cfg0 1 4)) = Ok 1%nat /\ nth_error (last_child pr) 1 = Some n /\ ttt_check_winner (n_state n) = Some 0.
Proof. intros pr. eexists. split; [reflexivity|]. split; [destruct pr; vm_compute; reflexivity|]. split; reflexivity. Qed.

(** C35.  In exact arithmetic the priors of a position are the policy restricted to the codes
    of the valid moves and divided by their total: [shares] says that every such code gets its
    proportion, every other code gets 0 and the sum is 1.  Both the one-row tensor version and
    the 1352-entry vector version. *)
Theorem C35_priors : forall G I, alpha_game G I -> forall s vm, I s -> g_valid G s = Ok vm ->
  exists codes, mmap (g_encode G s) vm = Ok codes /\ NoDup codes /\ (forall c, In c codes -> 0 <= c < g_actions G)
  /\ forall policy : list Q, length policy = asize G -> ~ (qsum (map snd (weights policy codes)) == 0)%Q ->
     (exists p, probs_tensor numQ policy codes = Ok p /\ shares (asize G) (weights policy codes) p)
     /\ (g_actions G <= 1352 -> exists p, probs_vec numQ (idx policy) codes = Ok p /\ shares 1352 (weights policy codes) p).
Proof. exact C35_priors_lemma. Qed.
Print Assumptions C35_priors.

(** C35.  The batched version: one row of priors for each position. *)
Theorem C35_batch : forall G I, alpha_game G I -> forall ss : list (St G), (forall s, In s ss -> I s) ->
  exists vms codes, mmap (g_valid G) ss = Ok vms /\ Forall2 (fun s vc => mmap (g_encode G s) (fst vc) = Ok (snd vc)) ss (combine vms codes)
    /\ length codes = length ss
    /\ forall policy : list (list Q), length policy = length ss -> (forall row, In row policy -> length row = asize G) ->
       exists rows, probs_tensor_parallel numQ policy (seq 0 (length ss)) codes = Ok rows /\ length rows = length ss
         /\ forall i row cs, nth_error policy i = Some row -> nth_error codes i = Some cs -> ~ (qsum (map snd (weights row cs)) == 0)%Q ->
            exists p, nth_error rows i = Some p /\ shares (asize G) (weights row cs) p.
Proof. exact C35_batch_lemma. Qed.
Print Assumptions C35_batch.
(** with cells 2 and 5 free and a uniform policy each of them gets one half *)
Example C35_run : exists p, probs_tensor numQ (repeat (1 # 9)%Q 9) [2; 5] = Ok p
  /\ (nth 2 p 0 == 1 # 2)%Q /\ (nth 5 p 0 == 1 # 2)%Q /\ (nth 0 p 0 == 0)%Q.
Proof. eexists. split; [vm_compute; reflexivity|]. repeat split. Qed.

(** C35 on the program's f32 arithmetic: the total vanishes only if the policy vanishes on all
    valid codes; otherwise a valid code gets the correctly rounded quotient and all others 0. *)
Theorem C35_f32 : forall G I, alpha_game G I -> forall tsum, tsum_ok tsum -> forall (n : node G) vm (policy : list f32),
  I (n_state n) -> g_valid G (n_state n) = Ok vm -> n_exp n = vm -> length policy = asize G -> Forall nn32 policy ->
  exists codes p, mmap (g_encode G (n_state n)) vm = Ok codes
    /\ turn_policy_to_probs_tensor tsum (mkT [asize G] policy) n = Ok (mkT [asize G] p) /\ length p = asize G
    /\ exists total, nn32 total
       /\ (total = f0 <-> forall c, In c codes -> nth (Z.to_nat c) policy f0 = f0)
       /\ (forall c, In c codes -> nth (Z.to_nat c) p f0 = fdiv (nth (Z.to_nat c) policy f0) total)
       /\ (total <> f0 -> forall j, (j < asize G)%nat -> ~ In (Z.of_nat j) codes -> nth j p f0 = f0).
Proof. exact C35_f32_lemma. Qed.
Print Assumptions C35_f32.
Example C35_f32_hyps : forall pr, exists n : node (ttt_game pr), ttt_pos (n_state n) /\ n_exp n = ttt_valid_moves (n_state n) /\ n_exp n <> []
  /\ length (map f32_of_Z prefs) = asize (ttt_game pr) /\ Forall nn32 (map f32_of_Z prefs) /\ tsum_ok tsum0.
Proof.
  intros pr. exists (mkNode (G := ttt_game pr) one_left 0 None [] f0 f0 f0 None [8]). cbn [n_state n_exp].
  split; [split; [reflexivity|left; reflexivity]|]. split; [reflexivity|]. split; [discriminate|]. split; [reflexivity|]. split; [|apply tsum0_ok].
  repeat (constructor; [right; right; eexists; eexists; split; [vm_compute; reflexivity|lia]|]). constructor.
Qed.

(** C36.  After a batched search with at least one iteration the distribution of a game with
    valid moves is a [visit_row]: entries from 0 to 1, not all 0, each child's entry the
    correctly rounded quotient of its visits and the common total, 0 exactly for unvisited
    children and for everything that is not a valid move. *)
Theorem C36_distribution : forall G I, alpha_game G I -> forall tsum, tsum_ok tsum -> forall dirichlet nt cfg ss order r st r',
  (forall s, In s ss -> I s) -> Permutation order (seq 0 (length ss)) ->
  1 + Z.of_nat (iterations cfg) * Z.of_nat (S (length ss)) <= 2 ^ 24 -> (0 < iterations cfg)%nat ->
  alpha_mcts_parallel tsum dirichlet nt cfg order [] ss r = Ok (st, r') ->
  get_root_nodes st = firstn (length ss) st /\
  exists rows, get_prob_tensor_parallel tsum (get_root_nodes st) st = Ok rows /\ length rows = length ss
    /\ forall g s, nth_error ss g = Some s -> exists n vm row, nth_error st g = Some n /\ n_state n = s /\ g_valid G s = Ok vm
         /\ nth_error rows g = Some row /\ (vm <> [] -> visit_row st n vm row).
Proof. exact C36_distribution_lemma. Qed.
Print Assumptions C36_distribution.

(** C36.  Over the rationals: proportional to the visits, zero elsewhere, sum one. *)
Theorem C36_exact : forall A (cv : list (Z * Q)), (forall c w, In (c, w) cv -> 0 <= c < Z.of_nat A) -> NoDup (map fst cv) ->
  ~ (qsum (map snd cv) == 0)%Q -> exists p, visit_probs numQ A cv = Ok p /\ shares A cv p.
Proof. exact C36_exact_lemma. Qed.
Print Assumptions C36_exact.

(** C36.  Hence sampling from the tempered distribution of a game either is skipped because all
    weights are 0, or returns the code of a valid move: the assertion of the callers holds. *)
Theorem C36_sampled : forall G I, alpha_game G I -> Z.of_nat (asize G) <= 2 ^ 40 ->
  forall tsum, tsum_ok tsum -> forall unif, unif_ok unif -> forall tpow, pow_ok tpow ->
  forall dirichlet nt cfg ss order r st r' rows,
  (forall s, In s ss -> I s) -> Permutation order (seq 0 (length ss)) ->
  1 + Z.of_nat (iterations cfg) * Z.of_nat (S (length ss)) <= 2 ^ 24 -> (0 < iterations cfg)%nat ->
  alpha_mcts_parallel tsum dirichlet nt cfg order [] ss r = Ok (st, r') ->
  get_prob_tensor_parallel tsum (get_root_nodes st) st = Ok rows ->
  forall g s vm row, nth_error ss g = Some s -> g_valid G s = Ok vm -> vm <> [] -> nth_error rows g = Some row ->
  let pi := map tpow row in
  (SFeqb (tsum pi) f0 = true -> Forall (fun x => x = f0) pi)
  /\ (SFeqb (tsum pi) f0 = false -> forall rr, exists a m rr', weighted_select_tensor_idx unif pi rr = Ok (a, rr')
        /\ nth a pi f0 <> f0 /\ g_decode G s (Z.of_nat a) = Ok m /\ In m vm /\ g_encode G s m = Ok (Z.of_nat a)).
Proof. exact C36_sampled_lemma. Qed.
Print Assumptions C36_sampled.
(** a search of two games with two iterations: rows of the first game over cells 0 and 3 *)
Definition run_rows (pr : profile) (it : nat) (ss : list ttt) : res (list (list f32)) :=
  '(st, _) <- alpha_mcts_parallel (G := ttt_game pr) tsum0 dir0 (net0 prefs) (cfg0 it 4) (rev (seq 0 (length ss))) [] ss rng0 ;;
  get_prob_tensor_parallel tsum0 (get_root_nodes st) st.
Example C36_run : forall pr, let h := fdiv f1 (f32_of_Z 2) in
  run_rows pr 2 [ttt_new; one_left] = Ok [[h; f0; f0; h; f0; f0; f0; f0; f0]; [f0; f0; f0; f0; f0; f0; f0; f0; f1]]
  /\ tsum_ok tsum0 /\ unif_ok unif0 /\ pow_ok pow1 /\ (forall s, In s [ttt_new; one_left] -> ttt_pos s) /\ Z.of_nat (asize (ttt_game pr)) <= 2 ^ 40.
Proof.
  intros pr h. split; [destruct pr; vm_compute; reflexivity|].
  split; [apply tsum0_ok|]. split; [apply unif0_ok|]. split; [apply pow1_ok|]. split; [|vm_compute; discriminate].
  intros s [<-|[<-|[]]]; (split; [reflexivity|left; reflexivity]).
Qed.

(** C36.  With 0 iterations every row is NaN and sampling panics. *)
Theorem C36_zero_iterations : forall G I, alpha_game G I -> forall tsum, tsum_ok tsum -> forall unif tpow, tpow S754_nan = S754_nan ->
  forall dirichlet nt cfg ss order r st r' rows,
  (forall s, In s ss -> I s) -> Permutation order (seq 0 (length ss)) -> iterations cfg = 0%nat ->
  alpha_mcts_parallel tsum dirichlet nt cfg order [] ss r = Ok (st, r') ->
  get_prob_tensor_parallel tsum (get_root_nodes st) st = Ok rows ->
  forall g row, nth_error rows g = Some row -> forall rr, weighted_select_tensor_idx unif (map tpow row) rr = Panic PUnwrap.
Proof. exact C36_zero_iterations_lemma. Qed.
Print Assumptions C36_zero_iterations.
Example C36_zero_run : forall pr, run_rows pr 0 [ttt_new] = Ok [repeat S754_nan 9].
Proof. intros pr; destruct pr; vm_compute; reflexivity. Qed.

(** C37.  The result of the batched search does not depend on the order of the HashSet. *)
Theorem C37_order : forall G I, alpha_game G I -> forall tsum dirichlet nt cfg ss o1 o2 r, (forall s, In s ss -> I s) ->
  Permutation o1 (seq 0 (length ss)) -> Permutation o2 (seq 0 (length ss)) ->
  alpha_mcts_parallel tsum dirichlet nt cfg o1 [] ss r = alpha_mcts_parallel tsum dirichlet nt cfg o2 [] ss r.
Proof. exact C37_order_lemma. Qed.
Print Assumptions C37_order.
(** two different orders of a batch of two (the run of C36 shows that the search succeeds) *)
Example C37_orders : Permutation [1; 0]%nat (seq 0 (length [ttt_new; one_left])) /\ Permutation [0; 1]%nat (seq 0 (length [ttt_new; one_left])) /\ [1; 0]%nat <> [0; 1]%nat.
Proof. split; [apply perm_swap|]. split; [apply Permutation_refl|discriminate]. Qed.

(** C38.  It is false that a search with k iterations leaves 1 + k visits at every root. *)
Theorem C38_contamination_refuted : forall pr,
  ~ (forall nt cfg (ss : list ttt) order r st r', net_ok (ttt_game pr) nt -> (forall s, In s ss -> ttt_pos s /\ ttt_check_winner s = None) ->
      Permutation order (seq 0 (length ss)) ->
      alpha_mcts_parallel (G := ttt_game pr) tsum0 dir0 nt cfg order [] ss r = Ok (st, r') ->
      forall g n, (g < length ss)%nat -> nth_error st g = Some n -> n_visits n = f32_of_Z (1 + Z.of_nat (iterations cfg))).
Proof. exact C38_contamination_refuted_lemma. Qed.
Print Assumptions C38_contamination_refuted.
(** the visits at game 0's root depend on what game 1 is *)
Example C38_run : forall pr,
  root_visits_of pr (alpha_mcts_parallel (G := ttt_game pr) tsum0 dir0 (net0 prefs) (cfg0 1 4) [0; 1]%nat [] [ttt_new; one_left] rng0) 0 = Some (f32_of_Z 3)
  /\ root_visits_of pr (alpha_mcts_parallel (G := ttt_game pr) tsum0 dir0 (net0 prefs) (cfg0 1 4) [0; 1]%nat [] [ttt_new; ttt_new] rng0) 0 = Some (f32_of_Z 2).
Proof. exact two_games_run. Qed.

(** C38.  It is true as long as no selection ends at a finished position. *)
Theorem C38_no_finished_leaf : forall G I, alpha_game G I -> forall tsum dirichlet nt cfg ss order r st0 r0 st r',
  (forall s, In s ss -> I s) -> Permutation order (seq 0 (length ss)) -> 1 + Z.of_nat (iterations cfg) <= 2 ^ 24 ->
  par_init tsum dirichlet nt cfg ss r = Ok (st0, r0) ->
  (** in no iteration a selection ends at a finished position *)
  (forall k st1 sel1 r1, (k < iterations cfg)%nat -> par_loop tsum nt cfg k order (st0, repeat 0%nat (length ss), r0) = Ok (st1, sel1, r1) ->
     forall g i n, (g < length ss)%nat -> alpha_select_leaf_node g st1 (cfg_c cfg) = Ok i -> nth_error st1 i = Some n -> g_winner G (n_state n) = None) ->
  alpha_mcts_parallel tsum dirichlet nt cfg order [] ss r = Ok (st, r') ->
  forall g n, (g < length ss)%nat -> nth_error st g = Some n -> n_visits n = f32_of_Z (1 + Z.of_nat (iterations cfg)).
Proof. exact C38_no_finished_leaf_lemma. Qed.
Print Assumptions C38_no_finished_leaf.
(** with one iteration from two fresh boards the condition (on k = 0) holds *)
Example C38_no_finished_run : forall pr,
  match par_init (G := ttt_game pr) tsum0 dir0 (net0 prefs) (cfg0 1 4) [ttt_new; ttt_new] rng0 with
  | Ok (st0, _) => forallb (fun g => match alpha_select_leaf_node g st0 (cfg_c (cfg0 1 4)) with
                                     | Ok i => match nth_error st0 i with
                                               | Some n => match ttt_check_winner (n_state n) with None => true | Some _ => false end
                                               | None => false end
                                     | Panic _ => false end) [0; 1]%nat
  | Panic _ => false
  end = true.
Proof. intros pr; destruct pr; vm_compute; reflexivity. Qed.

(** C38.  In every run a root gets at least one visit per iteration and at most one more than
    there are games; with a single game exactly one. *)
Theorem C38_bounds : forall G I, alpha_game G I -> forall tsum dirichlet nt cfg ss order r st r',
  (forall s, In s ss -> I s) -> Permutation order (seq 0 (length ss)) ->
  1 + Z.of_nat (iterations cfg) * Z.of_nat (S (length ss)) <= 2 ^ 24 ->
  alpha_mcts_parallel tsum dirichlet nt cfg order [] ss r = Ok (st, r') ->
  forall g n, (g < length ss)%nat -> nth_error st g = Some n -> exists v, n_visits n = f32_of_Z v
    /\ 1 + Z.of_nat (iterations cfg) <= v <= 1 + Z.of_nat (iterations cfg) * Z.of_nat (S (length ss))
    /\ (length ss = 1%nat -> v = 1 + Z.of_nat (iterations cfg)).
Proof. exact C38_bounds_lemma. Qed.
Print Assumptions C38_bounds.

(** C54.  The batched search never panics; the store it leaves holds one search tree for each
    position ([forest]), whose nodes are positions of the game. *)
Theorem C54_forest : forall G I, alpha_game G I -> forall tsum dirichlet nt cfg ss order r,
  ss <> [] -> (forall s, In s ss -> I s) -> net_ok G nt -> SFltb f0 (dir_alpha cfg) = true ->
  (forall k a rr, length (fst (dirichlet k a rr)) = k) -> Permutation order (seq 0 (length ss)) ->
  exists st r', alpha_mcts_parallel tsum dirichlet nt cfg order [] ss r = Ok (st, r') /\ forest ss st
    /\ forall i n, nth_error st i = Some n -> I (n_state n).
Proof. exact C54_forest_lemma. Qed.
Print Assumptions C54_forest.
Example C54_hyps : forall pr, alpha_game (bg_game pr) bg_pos /\ net_ok (bg_game pr) (net0 (repeat 1 (Z.to_nat 1352))) /\ SFltb f0 (dir_alpha (cfg0 2 4)) = true
  /\ (forall k a rr, length (fst (dir0 k a rr)) = k).
Proof. intros pr. split; [apply bg_alpha|]. split; [apply net0_ok; vm_compute; reflexivity|]. split; [reflexivity|apply dir0_len]. Qed.
