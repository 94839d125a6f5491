(** * Prop_Self: C44-C47 — self-play. *)
From Coq Require Import Permutation.
From Verif Require Import Base F32 RoundFacts DivError Tensor TttModel BgModel GameModel McModel McSpec GameFacts AlphaModel AlphaSpec AlphaInst
  SampleModel VisitSpec SelfModel SelfSpec SelfApi SelfApi2 Witness AlphaApi3.

(** both games can be self-played: the hypothesis [play_game] of the theorems below *)
Example both_play : forall pr, play_game (G := ttt_game pr) ttt_pos /\ play_game (G := bg_game pr) bg_pos.
Proof. intros pr. split; [apply ttt_play|apply bg_play]. Qed.

(** C44.  Without any assumption on the search, the network, the sampler or the dice: if games
    are left after [k] rounds then [k] is at most the round limit, so the loop runs at most
    limit + 1 rounds; and fuel beyond that changes nothing, so the fuel of the model never cuts
    a run short. *)
Theorem C44_rounds : forall (G : Game) tsum dirichlet unif tpow nt cfg hash order n r l r1,
  (forall j (m : list (nat * St G)), Permutation (hash j m) m) -> fresh_games 0 n r = Ok (l, r1) ->
  (forall k a, mfold (fun a j => sp_round tsum dirichlet unif tpow nt cfg hash order j a) (seq 0 k) (sp_start n l r1) = Ok a ->
     sp_states a <> [] -> (k <= sim_limit cfg)%nat)
  /\ forall fuel, (sim_limit cfg < fuel)%nat ->
     self_play_parallel tsum dirichlet unif tpow nt cfg hash order fuel n r = self_play_parallel tsum dirichlet unif tpow nt cfg hash order (S (sim_limit cfg)) n r.
Proof. exact C44_rounds_lemma. Qed.
Print Assumptions C44_rounds.
(** C45.  Under the usual hypotheses the call returns (so C44's bound is a termination proof),
    and its samples are those of the [n] games, each contributing one [block]: see [SelfSpec.block]
    for the three ways a game can end. *)
Theorem C45_samples : forall G I, play_game (G := G) I ->
  forall tsum, tsum_ok tsum -> forall dirichlet, (forall k a rr, length (fst (dirichlet k a rr)) = k) ->
  forall unif, unif_ok unif -> forall tpow, pow_ok tpow -> forall nt, net_ok G nt ->
  forall cfg, SFltb f0 (dir_alpha cfg) = true -> (0 < iterations cfg)%nat ->
  forall hash, (forall j (m : list (nat * St G)), Permutation (hash j m) m) ->
  forall order, (forall j n, Permutation (order j n) (seq 0 n)) ->
  forall n fuel r, 1 + Z.of_nat (iterations cfg) * Z.of_nat (S n) <= 2 ^ 24 -> (sim_limit cfg < fuel)%nat ->
  exists (games : list (St G)) out r' parts, self_play_parallel tsum dirichlet unif tpow nt cfg hash order fuel n r = Ok (out, r')
    /\ length games = n
    /\ (forall s, In s games -> exists r0 r0', fresh r0 = Ok (s, r0'))
    /\ out = concat (map snd parts) /\ Permutation (map fst parts) (seq 0 n)
    /\ forall i b, In (i, b) parts -> exists s0, nth_error games i = Some s0 /\ block tpow (sim_limit cfg) s0 b.
Proof. exact C45_samples_lemma. Qed.
Print Assumptions C45_samples.
(** C45.  All labels are -1, 0 or 1. *)
Theorem C45_labels : forall G tpow limit (s0 : St G) b f, block tpow limit s0 b -> In f b -> fr_outcome f = -1 \/ fr_outcome f = 0 \/ fr_outcome f = 1.
Proof. exact C45_labels_lemma. Qed.
Print Assumptions C45_labels.
(** the hypotheses of the two theorems are met by the parameters of [Witness]; the limit of six
    rounds leaves one game unfinished *)
Example C45_hyps : tsum_ok tsum0 /\ (forall k a rr, length (fst (dir0 k a rr)) = k) /\ unif_ok unif0 /\ pow_ok pow1
  /\ (forall pr, net_ok (ttt_game pr) (net0 prefs)) /\ SFltb f0 (dir_alpha (cfg0 3 6)) = true /\ (0 < iterations (cfg0 3 6))%nat
  /\ 1 + Z.of_nat (iterations (cfg0 3 6)) * Z.of_nat 2 <= 2 ^ 24.
Proof.
  split; [apply tsum0_ok|]. split; [apply dir0_len|]. split; [apply unif0_ok|]. split; [apply pow1_ok|]. split; [intros pr; apply net0_ok; reflexivity|].
  split; [reflexivity|]. split; [cbn; lia|]. cbn. lia.
Qed.
(** C45, violation.  One game of TicTacToe with limit 6, won by the seventh move: the first six
    positions are recorded twice, once labelled 0 and once with the winner's label. *)
Theorem C45_duplicates_refuted : forall pr,
  ~ (forall tsum, tsum_ok tsum -> forall dirichlet, (forall k a rr, length (fst (dirichlet k a rr)) = k) ->
     forall unif, unif_ok unif -> forall tpow, pow_ok tpow -> forall nt, net_ok (ttt_game pr) nt ->
     forall cfg, SFltb f0 (dir_alpha cfg) = true -> (0 < iterations cfg)%nat ->
     forall hash, (forall j (m : list (nat * ttt)), Permutation (hash j m) m) ->
     forall order, (forall j n, Permutation (order j n) (seq 0 n)) ->
     forall fuel r out r', self_play_parallel (G := ttt_game pr) tsum dirichlet unif tpow nt cfg hash order fuel 1 r = Ok (out, r') ->
     forall f g, In f out -> In g out -> fr_state f = fr_state g -> fr_ps f = fr_ps g -> fr_outcome f = fr_outcome g).
Proof. exact C45_duplicates_refuted_lemma. Qed.
Print Assumptions C45_duplicates_refuted.
Example C45_duplicates_run : forall pr, match self_play_parallel (G := ttt_game pr) tsum0 dir0 unif0 pow1 (net0 prefs) (cfg0 3 6) hash0 order0 7 1 rng0 with
  | Ok (out, _) => map fr_outcome out = [0; 0; 0; 0; 0; 0; 1; -1; 1; -1; 1; -1; 1]
      /\ map fr_state (firstn 6 out) = map fr_state (firstn 6 (skipn 6 out)) /\ map fr_ps (firstn 6 out) = map fr_ps (firstn 6 (skipn 6 out))
  | Panic _ => False
  end.
Proof. exact both_run_eq. Qed.

(** C46.  Choosing a move with the sequential search panics on every unfinished position with a
    valid move and returns EMPTY_MOVE on the others. *)
Theorem C46_next_move : forall G I, alpha_game G I -> forall tsum dirichlet unif tpow nt cfg, net_ok G nt ->
  forall s vm r, I s -> g_valid G s = Ok vm ->
  let next := get_next_move_for_state unif tpow (fun s r => alpha_mcts (G := G) tsum dirichlet nt cfg s r) s r in
  (g_winner G s = None -> vm <> [] -> exists p, next = Panic p /\ p <> PFuel)
  /\ (g_winner G s <> None \/ vm = [] -> next = Ok (g_empty G, r)).
Proof. exact C46_next_move_lemma. Qed.
Print Assumptions C46_next_move.
(** C46.  With a search that works, the move is that of an action of positive probability. *)
Theorem C46_choice : forall (G : Game) unif, unif_ok unif -> forall tpow, pow_ok tpow -> forall search s r r1,
  (search s r = Ok (None, r1) -> get_next_move_for_state (G := G) unif tpow search s r = Ok (g_empty G, r1))
  /\ (forall pi, search s r = Ok (Some pi, r1) -> Z.of_nat (length pi) <= 2 ^ 40 -> Forall unit32 pi -> Exists (fun x => tpow x <> f0) pi ->
        exists a r2, (a < length pi)%nat /\ tpow (nth a pi f0) <> f0
          /\ (forall m, g_decode G s (Z.of_nat a) = Ok m -> get_next_move_for_state (G := G) unif tpow search s r = Ok (m, r2))
          /\ (forall p, g_decode G s (Z.of_nat a) = Panic p -> get_next_move_for_state (G := G) unif tpow search s r = Panic p)).
Proof. exact C46_choice_lemma. Qed.
Print Assumptions C46_choice.
Example C46_choice_run : forall pr, let search (s : ttt) (r : rng) := Ok (Some (repeat f0 4 ++ [f1] ++ repeat f0 4), r) in
  match get_next_move_for_state (G := ttt_game pr) unif0 pow1 search ttt_new rng0 with Ok (m, _) => m = 4 | Panic _ => False end
  /\ unif_ok unif0 /\ pow_ok pow1 /\ Forall unit32 (repeat f0 4 ++ [f1] ++ repeat f0 4).
Proof.
  intros pr search. split; [destruct pr; vm_compute; reflexivity|]. split; [apply unif0_ok|]. split; [apply pow1_ok|]. cbn [repeat app].
  assert (H0 : unit32 f0) by (left; reflexivity). assert (H1 : unit32 f1) by (right; do 2 eexists; repeat split; reflexivity). repeat (constructor; [assumption|]). constructor.
Qed.
(** C46.  Sequential self-play never returns: with a search that panics whenever there is a move,
    it panics, and not for lack of fuel if the fresh position has a move ... *)
Theorem C46_self_play : forall G I, play_game (G := G) I -> forall tsum dirichlet unif tpow nt cfg, net_ok G nt ->
  forall fuel r, exists p, self_play unif tpow (fun s r => alpha_mcts (G := G) tsum dirichlet nt cfg s r) fuel r = Panic p
    /\ ((0 < fuel)%nat -> (forall s r', fresh r = Ok (s, r') -> g_valid G s <> Ok []) -> p <> PFuel).
Proof. exact C46_self_play_lemma. Qed.
Print Assumptions C46_self_play.
(** ... which holds in both games, whatever the dice. *)
Example C46_first_moves : forall pr r,
  (forall s r', fresh (G := ttt_game pr) r = Ok (s, r') -> g_valid (ttt_game pr) s <> Ok [])
  /\ (forall s r', fresh (G := bg_game pr) r = Ok (s, r') -> g_valid (bg_game pr) s <> Ok []).
Proof. intros pr r. split; [apply ttt_first_move|apply bg_first_move]. Qed.
(** C46.  With any search that works, the samples are the positions of one game in order,
    labelled 1 for the winner's positions and -1 for all others. *)
Theorem C46_labels : forall (G : Game) unif tpow search fuel r out r', self_play (G := G) unif tpow search fuel r = Ok (out, r') ->
  exists s0 r0 h s w, fresh r = Ok (s0, r0) /\ seq_history s0 h s /\ g_winner G s = Some w /\ h <> []
    /\ length out = length h
    /\ forall i f, nth_error h i = Some f -> exists g, nth_error out i = Some g /\ fr_ps g = fr_ps f /\ fr_state g = fr_state f
         /\ (fr_outcome f = w -> fr_outcome g = 1) /\ (fr_outcome f <> w -> fr_outcome g = -1).
Proof. exact C46_labels_lemma. Qed.
Print Assumptions C46_labels.
(** C46.  Hence in a drawn game of TicTacToe every position is labelled -1 (self_play_parallel
    labels it 0: [SelfSpec.scored]). *)
Theorem C46_draw : forall pr unif tpow search fuel r out r', self_play (G := ttt_game pr) unif tpow search fuel r = Ok (out, r') ->
  exists s, (exists h, seq_history (G := ttt_game pr) ttt_new h s /\ length out = length h) /\ out <> [] /\
    (ttt_check_winner s = Some 0 -> forall f, In f out -> fr_outcome f = -1).
Proof. exact C46_draw_lemma. Qed.
Print Assumptions C46_draw.
Example C46_drawn_game : forall pr, match self_play (G := ttt_game pr) unif0 pow1 draw_search 20 rng0 with
  | Ok (out, _) => map fr_outcome out = [-1; -1; -1; -1; -1; -1; -1; -1; -1]
  | Panic _ => False
  end.
Proof. exact draw_run. Qed.
Example C46_batched_draw : forall p, p = 1 \/ p = -1 -> score 0 p = 0.
Proof. intros p [->| ->]; reflexivity. Qed.

(** C47.  Every stored policy comes from a search of the stored position: its entries are the
    shares of the visits by move code raised to 1/temperature.  They keep the support (up to
    underflow) and the order of the visits; at temperature 1 they sum to one up to 2^-23. *)
Theorem C47_policies : forall G I, play_game (G := G) I ->
  forall tsum, tsum_ok tsum -> forall dirichlet, (forall k a rr, length (fst (dirichlet k a rr)) = k) ->
  forall unif, unif_ok unif -> forall tpow, pow_ok tpow -> forall nt, net_ok G nt ->
  forall cfg, SFltb f0 (dir_alpha cfg) = true -> (0 < iterations cfg)%nat ->
  forall hash, (forall j (m : list (nat * St G)), Permutation (hash j m) m) ->
  forall order, (forall j n, Permutation (order j n) (seq 0 n)) ->
  forall n fuel r out r', 1 + Z.of_nat (iterations cfg) * Z.of_nat (S n) <= 2 ^ 24 ->
  self_play_parallel tsum dirichlet unif tpow nt cfg hash order fuel n r = Ok (out, r') ->
  forall f, In f out -> exists s ks, g_tensor G s = Ok (fr_state f) /\ stored_policy tpow s (fr_ps f) ks.
Proof. exact C47_policies_lemma. Qed.
Print Assumptions C47_policies.
(** C47, violation.  At temperature 1/2, where the power is squaring, the first stored policy of
    this run sums to exactly 1/2. *)
Theorem C47_half_refuted : forall pr,
  ~ (forall nt, net_ok (ttt_game pr) nt -> forall cfg, SFltb f0 (dir_alpha cfg) = true -> (0 < iterations cfg)%nat ->
     forall fuel n r out r', 1 + Z.of_nat (iterations cfg) * Z.of_nat (S n) <= 2 ^ 24 ->
     self_play_parallel (G := ttt_game pr) tsum0 dir0 unif0 (fun x => fmul x x) nt cfg hash0 order0 fuel n r = Ok (out, r') ->
     forall f, In f out -> Z.abs (zsum (map units32 (fr_ps f)) - 2 ^ 149) <= 2 ^ 126).
Proof. exact C47_half_refuted_lemma. Qed.
Print Assumptions C47_half_refuted.
Example C47_half_run : forall pr, match self_play_parallel (G := ttt_game pr) tsum0 dir0 unif0 (fun x => fmul x x) (net0 prefs) (cfg0 2 8) hash0 order0 9 1 rng0 with
  | Ok (out, _) => map (fun f => zsum (map units32 (fr_ps f))) out = [2 ^ 148; 2 ^ 148; 2 ^ 148; 2 ^ 148; 2 ^ 149; 2 ^ 148; 2 ^ 149]
  | Panic _ => False
  end.
Proof. exact half_run. Qed.
Example C47_pow1 : pow_mono pow1 /\ forall x, pow1 x = x.
Proof. split; [intros x y _ _ H; exact H|reflexivity]. Qed.
