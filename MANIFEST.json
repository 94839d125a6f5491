{
 "claims": [
  {
   "property": "C01",
   "status": "proved",
   "theorems": [
    "C01_conservation"
   ],
   "note": "histories = reach (BgReach.v): roll_die, skip_turn, set_id, apply_move of a returned move"
  },
  {
   "property": "C02",
   "status": "proved",
   "theorems": [
    "C02_no_panic",
    "C02_before_roll"
   ],
   "note": ""
  },
  {
   "property": "C03",
   "status": "proved",
   "theorems": [
    "C03_sound"
   ],
   "note": ""
  },
  {
   "property": "C04",
   "status": "proved",
   "theorems": [
    "C04_bear_off_guarded",
    "C04_bear_off_refuted"
   ],
   "note": "guarded part proved for all positions; violation proved by replaying a proper game for each player"
  },
  {
   "property": "C05",
   "status": "proved",
   "theorems": [
    "C05_complete",
    "C05_legal_play_extends",
    "C05_exact_refuted"
   ],
   "note": "exact under the clear-home condition; unguarded exactness refuted by two reachable positions"
  },
  {
   "property": "C06",
   "status": "proved",
   "theorems": [
    "C06_distinct"
   ],
   "note": ""
  },
  {
   "property": "C07",
   "status": "proved",
   "theorems": [
    "C07_roll_order"
   ],
   "note": ""
  },
  {
   "property": "C08",
   "status": "proved",
   "theorems": [
    "C08_both_dice_not_forced",
    "C08_higher_die_not_forced"
   ],
   "note": "two reachable witnesses, replayed from the start position"
  },
  {
   "property": "C09",
   "status": "proved",
   "theorems": [
    "C09_mirror",
    "C09_mirror_refuted"
   ],
   "note": "guarded symmetry proved in both directions; unguarded symmetry refuted"
  },
  {
   "property": "C10",
   "status": "proved",
   "theorems": [
    "C10_next_state",
    "C10_empty"
   ],
   "note": ""
  },
  {
   "property": "C11",
   "status": "proved",
   "theorems": [
    "C11_apply_move",
    "C11_skip_turn",
    "C11_second_implies_double",
    "C11_all_dice"
   ],
   "note": ""
  },
  {
   "property": "C12",
   "status": "proved",
   "theorems": [
    "C12_double_sound",
    "C12_double_complete"
   ],
   "note": "sound and complete for positions satisfying the stated condition"
  },
  {
   "property": "C13",
   "status": "proved",
   "theorems": [
    "C13_pips"
   ],
   "note": ""
  },
  {
   "property": "C14",
   "status": "proved",
   "theorems": [
    "C14_check_win",
    "C14_check_winner"
   ],
   "note": ""
  },
  {
   "property": "C15",
   "status": "proved",
   "theorems": [
    "C15_no_deadlock"
   ],
   "note": ""
  },
  {
   "property": "C16",
   "status": "proved",
   "theorems": [
    "C16_round_trip",
    "C16_empty_move"
   ],
   "note": ""
  },
  {
   "property": "C17",
   "status": "proved",
   "theorems": [
    "C17_codes",
    "C17_empty_code_unique"
   ],
   "note": ""
  },
  {
   "property": "C18",
   "status": "proved",
   "theorems": [
    "C18_decode_total",
    "C18_bad_codes"
   ],
   "note": ""
  },
  {
   "property": "C19",
   "status": "proved",
   "theorems": [
    "C19_codecs_agree"
   ],
   "note": ""
  },
  {
   "property": "C20",
   "status": "proved",
   "theorems": [
    "C20_shape_and_content",
    "C20_faithful"
   ],
   "note": "content of every channel proved as well as faithfulness; all boards of 24 points"
  },
  {
   "property": "C21",
   "status": "proved",
   "theorems": [
    "C21_valid_moves",
    "C21_apply_move"
   ],
   "note": ""
  },
  {
   "property": "C22",
   "status": "proved",
   "theorems": [
    "C22_winner",
    "C22_play"
   ],
   "note": "histories tgame (TttSpec.v) include skip_turn and set_id at any time"
  },
  {
   "property": "C23",
   "status": "proved",
   "theorems": [
    "C23_games_end"
   ],
   "note": ""
  },
  {
   "property": "C24",
   "status": "proved",
   "theorems": [
    "C24_codec"
   ],
   "note": ""
  },
  {
   "property": "C25",
   "status": "proved",
   "theorems": [
    "C25_board_determined",
    "C25_player_hidden"
   ],
   "note": ""
  },
  {
   "property": "C26",
   "status": "proved",
   "theorems": [
    "C26_tree",
    "C26_tree_while_expanding"
   ],
   "note": "any game record, any logarithm, any random source; tree is defined in McSpec.v"
  },
  {
   "property": "C27",
   "status": "proved",
   "theorems": [
    "C27_valid_move",
    "C27_tictactoe",
    "C27_backgammon"
   ],
   "note": "general theorem for games closed under their operations, instances for TicTacToe and (with the panic of C28 as the only other outcome) Backgammon"
  },
  {
   "property": "C28",
   "status": "proved",
   "theorems": [
    "C28_stuck_panics",
    "C28_backgammon_search_refuted"
   ],
   "note": "witness position st_stuck replayed from the start"
  },
  {
   "property": "C29",
   "status": "proved",
   "theorems": [
    "C29_visits",
    "C29_counts_unique"
   ],
   "note": ""
  },
  {
   "property": "C30",
   "status": "proved",
   "theorems": [
    "C30_backpropagate",
    "C30_search_trees"
   ],
   "note": ""
  },
  {
   "property": "C31",
   "status": "proved",
   "theorems": [
    "C31_rollout_sees_nothing",
    "C31_finished_nodes",
    "C31_sure_win_refuted"
   ],
   "note": "refuted for the intended meaning by a TicTacToe position with one winning cell left"
  },
  {
   "property": "C32",
   "status": "proved",
   "theorems": [
    "C32_most_visits",
    "C32_win_pct",
    "C32_no_panic"
   ],
   "note": ""
  },
  {
   "property": "C33",
   "status": "proved",
   "theorems": [
    "C33_counter_exact",
    "C33_counter_stops",
    "C33_backpropagate_stops"
   ],
   "note": "SpecFloat binary32"
  },
  {
   "property": "C34",
   "status": "proved",
   "theorems": [
    "C34_sequential_search",
    "C34_finished_leaf"
   ],
   "note": "the property records a defect; the theorems prove the stated behaviour for all networks and both games"
  },
  {
   "property": "C35",
   "status": "proved",
   "theorems": [
    "C35_priors",
    "C35_batch",
    "C35_f32"
   ],
   "note": "exact rationals for all three functions, f32 for the single-row tensor version"
  },
  {
   "property": "C36",
   "status": "proved",
   "theorems": [
    "C36_distribution",
    "C36_exact",
    "C36_sampled",
    "C36_zero_iterations"
   ],
   "note": "f32; bound 1 + iterations*(games+1) <= 2^24 because counters stop there (C33); zero iterations is a violation"
  },
  {
   "property": "C37",
   "status": "proved",
   "theorems": [
    "C37_order"
   ],
   "note": ""
  },
  {
   "property": "C38",
   "status": "proved",
   "theorems": [
    "C38_contamination_refuted",
    "C38_no_finished_leaf",
    "C38_bounds"
   ],
   "note": "one visit per root and iteration is refuted by a computed run; proved under the stated condition"
  },
  {
   "property": "C39",
   "status": "proved",
   "theorems": [
    "C39_accounting",
    "C39_totals"
   ],
   "note": "for every pair of agents, network, configuration and random stream"
  },
  {
   "property": "C40",
   "status": "proved",
   "theorems": [
    "C40_tictactoe",
    "C40_backgammon"
   ],
   "note": ""
  },
  {
   "property": "C41",
   "status": "proved",
   "theorems": [
    "C41_after_limit",
    "C41_terminates",
    "C41_endless",
    "C41_limit_refuted"
   ],
   "note": "violation: an endless Backgammon match; guarded termination for live games"
  },
  {
   "property": "C42",
   "status": "proved",
   "theorems": [
    "C42_no_turns"
   ],
   "note": "unconditional"
  },
  {
   "property": "C43",
   "status": "proved",
   "theorems": [
    "C43_thresholds",
    "C43_verdict",
    "C43_file",
    "C43_returns"
   ],
   "note": "complete sweep of 0..400 wins in binary64"
  },
  {
   "property": "C44",
   "status": "proved",
   "theorems": [
    "C44_rounds",
    "C45_samples"
   ],
   "note": "round bound without assumptions on search, network, sampler, dice; return proved under the hypotheses of C45"
  },
  {
   "property": "C45",
   "status": "proved",
   "theorems": [
    "C45_samples",
    "C45_labels",
    "C45_duplicates_refuted"
   ],
   "note": "violation by a computed run"
  },
  {
   "property": "C46",
   "status": "proved",
   "theorems": [
    "C46_next_move",
    "C46_choice",
    "C46_self_play",
    "C46_labels",
    "C46_draw"
   ],
   "note": ""
  },
  {
   "property": "C47",
   "status": "proved",
   "theorems": [
    "C47_policies",
    "C47_half_refuted"
   ],
   "note": "f32 arithmetic, tolerance 2^-23; violation by a computed run"
  },
  {
   "property": "C48",
   "status": "proved",
   "theorems": [
    "C48_batches",
    "C48_number",
    "C48_zero",
    "C48_tensors"
   ],
   "note": "for every optimiser step"
  },
  {
   "property": "C49",
   "status": "proved",
   "theorems": [
    "C49_round_trip",
    "C49_same_batches",
    "C49_single",
    "C49_empty",
    "C49_self_play"
   ],
   "note": "violation for one fragment: C49_single"
  },
  {
   "property": "C50",
   "status": "proved",
   "theorems": [
    "C50_cumulative",
    "C50_multiplicity",
    "C50_self_play"
   ],
   "note": ""
  },
  {
   "property": "C51",
   "status": "proved",
   "theorems": [
    "C51_found",
    "C51_unreadable",
    "C51_layout",
    "C51_trained",
    "C51_learn_iteration",
    "C51_single_self_play",
    "C51_run_id"
   ],
   "note": "Paths are lists of names; links and ids with a slash are left out."
  },
  {
   "property": "C52",
   "status": "proved",
   "theorems": [
    "C52_names",
    "C52_round_trip",
    "C52_new",
    "C52_restart",
    "C52_optimiser",
    "C52_load"
   ],
   "note": "Variable store of tch as a list of names and values; the property reports a defect (the model file is ignored by AlphaZero::new)."
  },
  {
   "property": "C53",
   "status": "proved",
   "theorems": [
    "C53_cast",
    "C53_settings",
    "C53_values",
    "C53_rounding",
    "C53_negative_batch",
    "C53_train_args",
    "C53_cpus",
    "C53_agents"
   ],
   "note": "A configuration is what the config crate returns per key."
  },
  {
   "property": "C54",
   "status": "proved",
   "theorems": [
    "C54_forest"
   ],
   "note": ""
  },
  {
   "property": "C55",
   "status": "proved",
   "theorems": [
    "C55_no_panic",
    "C55_mcts_refuted"
   ],
   "note": ""
  },
  {
   "property": "C56",
   "status": "proved",
   "theorems": [
    "C56_replay"
   ],
   "note": ""
  },
  {
   "property": "C57",
   "status": "proved",
   "theorems": [
    "C57_forward",
    "C57_games",
    "C57_batches"
   ],
   "note": "Shape rules of libtorch for the layers used are part of the model."
  },
  {
   "property": "C58",
   "status": "proved",
   "theorems": [
    "C58_command",
    "C58_no_model"
   ],
   "note": "Reports a defect: the missing path is noticed only by the unwrap in the first round."
  },
  {
   "property": "C59",
   "status": "proved",
   "theorems": [
    "C59_plain",
    "C59_numbers",
    "C59_network",
    "C59_network_numbers",
    "C59_nan"
   ],
   "note": "For the network-guided search the scores are numbers if values lie in [-1,1] and priors are finite and not negative; C59_nan says what happens otherwise."
  },
  {
   "property": "C60",
   "status": "proved",
   "theorems": [
    "C60_priors"
   ],
   "note": ""
  },
  {
   "property": "C61",
   "status": "proved",
   "theorems": [
    "C61_values"
   ],
   "note": ""
  },
  {
   "property": "C62",
   "status": "proved",
   "theorems": [
    "C62_values",
    "C62_blind"
   ],
   "note": ""
  },
  {
   "property": "C63",
   "status": "proved",
   "theorems": [
    "C63_parallel",
    "C63_serial"
   ],
   "note": ""
  },
  {
   "property": "C64",
   "status": "proved",
   "theorems": [
    "C64_rounds",
    "C64_last_move",
    "C64_random"
   ],
   "note": ""
  },
  {
   "property": "C65",
   "status": "proved",
   "theorems": [
    "C65_policy",
    "C65_train"
   ],
   "note": ""
  },
  {
   "property": "C66",
   "status": "proved",
   "theorems": [
    "C66_text",
    "C66_injective",
    "C66_tictactoe",
    "C66_backgammon"
   ],
   "note": "serde and serde_json are modelled from their documentation"
  },
  {
   "property": "C67",
   "status": "proved",
   "theorems": [
    "C67_tictactoe",
    "C67_backgammon",
    "C67_field_order",
    "C67_missing",
    "C67_unchecked_refuted",
    "C67_trailing"
   ],
   "note": "a check of positions on loading is refuted"
  },
  {
   "property": "C68",
   "status": "proved",
   "theorems": [
    "C68_tictactoe",
    "C68_backgammon",
    "C68_same_id",
    "C68_bad_file",
    "C68_ttt_match",
    "C68_bg_match",
    "C68_fields"
   ],
   "note": ""
  },
  {
   "property": "C69",
   "status": "proved",
   "theorems": [
    "C69_picture",
    "C69_injective",
    "C69_game",
    "C69_ttt",
    "C69_ttt_injective",
    "C69_overflow",
    "C69_second_refuted",
    "C69_ttt_player_refuted"
   ],
   "note": ""
  },
  {
   "property": "C70",
   "status": "proved",
   "theorems": [
    "C70_tree",
    "C70_forest",
    "C70_complete"
   ],
   "note": "How numbers and actions are formatted is not modelled."
  },
  {
   "property": "C71",
   "status": "proved",
   "theorems": [
    "C71_summary",
    "C71_rate",
    "C71_exact_refuted"
   ],
   "note": "How an f64 is written is a parameter."
  },
  {
   "property": "C72",
   "status": "proved",
   "theorems": [
    "C72_text",
    "C72_fails",
    "C72_ttt_match",
    "C72_bg_match"
   ],
   "note": ""
  },
  {
   "property": "C73",
   "status": "proved",
   "theorems": [
    "C73_exact_network",
    "C73_more_iterations"
   ],
   "note": "the property \"does not prefer losing moves\" is false; witnesses with a proved exact network"
  },
  {
   "property": "C74",
   "status": "proved",
   "theorems": [
    "C74_no_block"
   ],
   "note": "the property \"blocks immediate threats\" is false; witness run"
  },
  {
   "property": "C75",
   "status": "proved",
   "theorems": [
    "C75_immediate_win",
    "C75_tictactoe",
    "C75_backgammon",
    "C75_few_iterations",
    "C75_few_refuted"
   ],
   "note": "needs sim_limit > 0; the refuted theorem shows that the condition on the iterations cannot be dropped"
  },
  {
   "property": "C76",
   "status": "proved",
   "theorems": [
    "C76_layers",
    "C76_variables",
    "C76_parameters",
    "C76_names",
    "C76_other_game"
   ],
   "note": "Layers are abstract functions; the variables of a layer and the naming rule are those of the crate tch 0.13."
  },
  {
   "property": "C77",
   "status": "proved",
   "theorems": [
    "C77_model_ignored",
    "C77_unreadable",
    "C77_train",
    "C77_train_settings",
    "C77_learn",
    "C77_play",
    "C77_play_backgammon",
    "C77_settings"
   ],
   "note": "Writing files succeeds; the state of training and the optimiser are parameters. That the model given to train and learn is ignored is the code's behaviour (AlphaZero::new loads it into a network that is dropped), almost certainly not intended."
  },
  {
   "property": "C78",
   "status": "proved",
   "theorems": [
    "C78_sequences",
    "C78_duplicates",
    "C78_normal",
    "C78_entry",
    "C78_entry_no_bar",
    "C78_normal_bar_refuted",
    "C78_collectible",
    "C78_fields",
    "C78_display",
    "C78_lines"
   ],
   "note": "get_normal_moves and get_entry_moves do not check the bar themselves (C78_entry_no_bar, C78_normal_bar_refuted); get_valid_moves calls the right one."
  },
  {
   "property": "C79",
   "status": "proved",
   "theorems": [
    "C79_tictactoe",
    "C79_backgammon",
    "C79_empty_code_refuted"
   ],
   "note": "Positions: nine cells and a player for Tic-Tac-Toe; 15 checkers a side, a player and rolled dice for Backgammon. The empty move's code in Tic-Tac-Toe is outside the action space (harmless: an unfinished game has a free cell, so nobody skips there)."
  },
  {
   "property": "C80",
   "status": "proved",
   "theorems": [
    "C80_move",
    "C80_ends",
    "C80_finish",
    "C80_search",
    "C80_deadlock",
    "C80_no_deadlock",
    "C80_endless",
    "C80_forced"
   ],
   "note": "A course is a list of valid moves and, where there is none, skipped turns, while nobody has won. The endless game was found by search and is replayed from the opening by the model (86 turns to a position with one checker each, then 5-5 for ever)."
  }
 ]
}
