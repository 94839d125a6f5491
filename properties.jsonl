{"id": "C01", "title": "Checker conservation", "statement": "Starting from Backgammon::new(), after any sequence of roll_die, skip_turn and apply_move with a move returned by get_valid_moves, each player still owns exactly 15 checkers (points + bar + collected), the board still has 24 points, no counter is negative, and Backgammon::is_valid() does not panic.", "quantifier": "every finite history of API calls, every dice outcome, every choice among the returned moves, both players", "why_tests_cant": "the set of reachable positions is astronomically large; tests check a handful of hand-written boards", "anchors": ["src/backgammon/backgammon_logic.rs: new, roll_die, skip_turn, apply_move, get_valid_moves, get_next_state, is_valid"]}
{"id": "C02", "title": "Move generation and application never panic and never overflow", "statement": "In every reachable position whose dice have been rolled, get_valid_moves returns normally, and applying any returned move returns normally: no out-of-bounds index, no i8/u8 overflow or underflow, no failed unwrap. The result is the same in a debug build (overflow panics) and a release build (overflow wraps). Calling get_valid_moves before any roll panics.", "quantifier": "every reachable position, every pair of dice, every returned move, both build profiles", "why_tests_cant": "panic freedom is a universally quantified statement over all reachable boards and dice", "anchors": ["src/backgammon/backgammon_logic.rs: get_valid_moves, apply_move, _get_action_trees, get_normal_moves, get_entry_moves, get_next_state"]}
{"id": "C03", "title": "Soundness of generated moves", "statement": "Every move returned by get_valid_moves is, step by step, a legal use of the two dice: each step uses a die not used before, a checker on the bar must enter first and only on an unblocked point, a checker moves forward by exactly the die to an unblocked point, checkers are borne off only when all checkers are home and with a die at least as large as the distance; and the sequence stops early only if no rule-conforming step is available for any remaining die.", "quantifier": "every well-formed position, every roll, both players, every returned move", "why_tests_cant": "tests enumerate a few boards; the claim is about all boards and all rolls", "anchors": ["src/backgammon/backgammon_logic.rs: get_valid_moves, _get_action_trees, get_normal_moves, get_entry_moves, is_collectible"]}
{"id": "C04", "title": "Bear-off rule and its boundary", "statement": "When no opposing checker stands in the mover's home board, every bear-off offered obeys the standard rule: the die equals the distance, or exceeds it and no own checker is farther back. When opposing checkers are in the home board the code sums signed checker counts and does offer rule-breaking bear-offs, in positions reachable from the start of a game.", "quantifier": "every well-formed position and roll (guarded part); existence over reachable positions (violation)", "why_tests_cant": "the guarded part ranges over all boards; the violation needs rare mixed home boards no test constructs", "anchors": ["src/backgammon/backgammon_logic.rs: get_normal_moves (left_sum)"]}
{"id": "C05", "title": "Completeness of generated moves", "statement": "If no opposing checker stands in the mover's home board, then for every maximal legal play of the two dice under the standard rules (in any die order) there is a returned move that leads to exactly the same board. In every position each legal play is an initial part of one that a returned move realises, and get_valid_moves is empty only if no legal step exists with either die. Without the home-board condition exactness fails in reachable positions: a maximal legal play can be missing, and a player without any legal step can be offered a move.", "quantifier": "every well-formed position, every roll, both players, every maximal legal play; existence over reachable positions for the failure", "why_tests_cant": "requires comparing against all legal plays of all boards", "anchors": ["src/backgammon/backgammon_logic.rs: get_valid_moves, remove_duplicate_states, extract_sequences_list"]}
{"id": "C06", "title": "Returned moves are distinct, non-empty and at most two steps", "statement": "The moves returned by get_valid_moves lead to pairwise different boards, each has one or two steps, and EMPTY_MOVE is never among them, so playing EMPTY_MOVE always means 'skip'.", "quantifier": "every well-formed position and roll", "why_tests_cant": "tests compare a few returned lists only", "anchors": ["src/backgammon/backgammon_logic.rs: get_valid_moves, remove_duplicate_states", "src/versus.rs: play (EMPTY_MOVE test)"]}
{"id": "C07", "title": "Roll order does not matter", "statement": "get_valid_moves returns the same list for roll (a,b) and roll (b,a), as does encode/decode.", "quantifier": "every position, every pair of dice values", "why_tests_cant": "one example is tested; the claim is for all boards and dice", "anchors": ["src/backgammon/backgammon_logic.rs: get_valid_moves, encode, decode"]}
{"id": "C08", "title": "Use of both dice is not forced", "statement": "Standard backgammon obliges a player to use both dice when some order allows it, and the higher die when only one can be used. get_valid_moves does not enforce this: there are reachable positions in which it returns a one-step move although a two-step move exists, and in which it returns a low-die single move although the high die can be played.", "quantifier": "existence over reachable positions", "why_tests_cant": "a violation is specific to rare boards, no test looks for it", "anchors": ["src/backgammon/backgammon_logic.rs: _get_action_trees, extract_sequences_helper"]}
{"id": "C09", "title": "Mirror symmetry between the players", "statement": "If no opposing checker stands in either home board, mirroring the board and swapping the players mirrors the set of boards reachable by the returned moves. Without that restriction the two branches of the bear-off code differ and the symmetry fails for a concrete reachable position.", "quantifier": "every well-formed position and roll (guarded part); existence (violation)", "why_tests_cant": "tests treat the two players on separate hand-picked boards", "anchors": ["src/backgammon/backgammon_logic.rs: get_normal_moves, get_entry_moves, is_collectible, get_next_state"]}
{"id": "C10", "title": "get_next_state has exactly the rule-book effect", "statement": "For a playable step, get_next_state removes one checker from the source (point or bar), adds one to the destination (point or collected), sends a single opposing checker on the destination to the bar, and changes nothing else; for a list of steps the effects compose, and the empty list changes nothing.", "quantifier": "every well-formed board, every playable step, both players", "why_tests_cant": "frame conditions ('nothing else changes') range over all boards", "anchors": ["src/backgammon/backgammon_logic.rs: get_next_state"]}
{"id": "C11", "title": "Turn order and doubles", "statement": "apply_move keeps the player and the dice and marks a second play exactly when a double was rolled and this is the first play; otherwise it clears the mark, passes the turn to the other player and draws new dice in 1..=6. skip_turn always passes the turn, clears the mark and draws new dice. In every history in which dice are re-rolled only by these calls, the second-play mark implies a double.", "quantifier": "every position, every move, every dice outcome, every history", "why_tests_cant": "interplay of doubles, skips and re-rolls over arbitrary histories", "anchors": ["src/backgammon/backgammon_logic.rs: apply_move, skip_turn, roll_die"]}
{"id": "C12", "title": "A double is played as up to four steps", "statement": "Two consecutive plays of the same double by the same player (first play, then second play, where an empty move list means skip) together are exactly a maximal legal play of four equal dice.", "quantifier": "every well-formed position whose mover's home board holds no opposing checker, every double", "why_tests_cant": "quantifies over all boards and both plays", "anchors": ["src/backgammon/backgammon_logic.rs: apply_move, get_valid_moves, is_second_play"]}
{"id": "C13", "title": "Pip accounting", "statement": "A returned move lowers the mover's pip count by at most the sum of the dice, by exactly the dice used when no checker is borne off, and always by at least one per step; the opponent's pip count changes only through hits and never decreases.", "quantifier": "every well-formed position, roll and returned move", "why_tests_cant": "arithmetic invariant over all boards", "anchors": ["src/backgammon/backgammon_logic.rs: get_valid_moves, get_next_state"]}
{"id": "C14", "title": "Winner detection", "statement": "In every reachable position check_win(p) holds exactly when p has no checker left on the board or the bar, and a player who has borne off everything has no valid move. If moves are only applied while there is no winner, check_winner reports p exactly when p has no checker left, at most one player ever has 15 collected checkers and the winner never changes afterwards.", "quantifier": "every reachable position / every history that stops at a win", "why_tests_cant": "links a counter to the whole board over all histories", "anchors": ["src/backgammon/backgammon_logic.rs: check_winner, check_win, check_win_without_player"]}
{"id": "C15", "title": "No mutual dead position", "statement": "In every reachable position without a winner there is a pair of dice with which the player to move, or after a skip the opponent, has at least one valid move; so a game can never lock up for good.", "quantifier": "every reachable position without a winner", "why_tests_cant": "a deadlock would need an exotic position; only an invariant proof excludes it", "anchors": ["src/backgammon/backgammon_logic.rs: get_valid_moves, skip_turn", "src/versus.rs: play"]}
{"id": "C16", "title": "Action codec round-trip", "statement": "In every well-formed position, for every move a returned by get_valid_moves, decode(encode(a)) = a.", "quantifier": "every well-formed position, every roll in 1..=6 x 1..=6, both players, every returned move", "why_tests_cant": "the encoder infers die order from distances through many special cases; tests cover ~45 literals", "anchors": ["src/backgammon/backgammon_logic.rs: encode, decode", "src/backgammon/encoding.rs: encode, decode", "src/alphazero/alpha_parallel.rs: self_play_parallel assert"]}
{"id": "C17", "title": "Codes are unique and fit the policy vector", "statement": "Two different returned moves of one position never share a code, every code is below ACTION_SPACE_SIZE (1352), and 1351 is the code of the empty move only.", "quantifier": "every well-formed position, every pair of returned moves", "why_tests_cant": "injectivity is a statement about all pairs in all positions", "anchors": ["src/backgammon/backgammon_logic.rs: encode, ACTION_SPACE_SIZE", "src/mcts/utils.rs: turn_policy_to_probs"]}
{"id": "C18", "title": "decode is total on the action space", "statement": "decode returns normally for every code below 1352 with any rolled dice and either player and yields at most two steps. Unless the first base-26 digit of the code is the unused value 25, every step starts on the bar or a point, goes its own die forward or leaves the board; codes with that digit yield a step from the non-existing point 25.", "quantifier": "all codes below 1352, all rolls, both players", "why_tests_cant": "1352 x 36 x 2 combinations are not tested", "anchors": ["src/backgammon/backgammon_logic.rs: decode", "src/backgammon/encoding.rs: decode"]}
{"id": "C19", "title": "The two codecs agree", "statement": "The inherent Backgammon::encode/decode and the LearnableGame::encode/decode return the same result on all inputs.", "quantifier": "all states, all move lists of any length, all codes", "why_tests_cant": "duplicated code can drift apart on untested inputs", "anchors": ["src/backgammon/encoding.rs: encode, decode", "src/backgammon/backgammon_logic.rs: encode, decode"]}
{"id": "C20", "title": "Backgammon network input is faithful", "statement": "as_tensor has shape [1,6,4,6]; two positions with rolled dice have equal tensors only if board, bar, collected, dice, player and second-play mark are all equal; it panics exactly when the dice are (0,0).", "quantifier": "all pairs of positions", "why_tests_cant": "injectivity ranges over all pairs", "anchors": ["src/backgammon/backgammon_logic.rs: as_tensor"]}
{"id": "C21", "title": "TicTacToe valid moves", "statement": "get_valid_moves returns exactly the indices of the empty cells in increasing order; apply_move on one of them changes only that cell to the mover's mark and passes the turn.", "quantifier": "all boards, all moves", "why_tests_cant": "quantifies over all boards and frame conditions", "anchors": ["src/tictactoe/mod.rs: get_valid_moves, apply_move, skip_turn"]}
{"id": "C22", "title": "TicTacToe winner detection", "statement": "check_winner returns a player iff that player owns one of the eight lines, 0 iff the board is full without a line, None otherwise, on every board on which not both players own a line; in every game played from the start (stopping at a result) not both players own a line.", "quantifier": "all boards; all histories of play including skips", "why_tests_cant": "a few boards are tested", "anchors": ["src/tictactoe/mod.rs: check_winner"]}
{"id": "C23", "title": "TicTacToe games end", "statement": "In every position without a result there is a valid move, and every game has a result after at most nine moves.", "quantifier": "all histories", "why_tests_cant": "all move orders", "anchors": ["src/tictactoe/mod.rs: get_valid_moves, apply_move, check_winner"]}
{"id": "C24", "title": "TicTacToe codec", "statement": "encode of a valid move is below ACTION_SPACE_SIZE = 9 and decode(encode(m)) = m for every valid move; EMPTY_MOVE (10) is never valid; decode panics exactly on codes above 255.", "quantifier": "all boards, moves and u32 codes", "why_tests_cant": "all codes", "anchors": ["src/tictactoe/mod.rs: encode, decode, EMPTY_MOVE"]}
{"id": "C25", "title": "TicTacToe network input hides the player to move", "statement": "as_tensor determines the board but not the player to move: two states reachable in play() with different players have the same input.", "quantifier": "all pairs of states (first part); existence (second part)", "why_tests_cant": "needs reasoning about pairs of states", "anchors": ["src/tictactoe/mod.rs: as_tensor", "src/versus.rs: play (skip_turn for the second half)"]}
{"id": "C26", "title": "Search tree well-formedness", "statement": "At every point of mct_search the node store is a tree: node i is stored at index i, node 0 is the only root, every other node's parent has a smaller index and lists it exactly once as a child, its action is a valid move of the parent, its state is the result of that move, and the actions of a node's children together with its expandable moves are exactly the valid moves of its state.", "quantifier": "every game, every number of iterations, every random source, every value of the exploration constant", "why_tests_cant": "the tree depends on unbounded random rollouts", "anchors": ["src/mcts/node_store.rs", "src/mcts/node.rs: expand", "src/mcts/simple_mcts.rs: mct_search"]}
{"id": "C27", "title": "mct_search returns a valid move", "statement": "For a game in which every unfinished position has a valid move (TicTacToe), mct_search with at least one iteration terminates without panic and returns a valid move of the given state; on a finished position, or with zero iterations, it returns EMPTY_MOVE.", "quantifier": "every state, every iteration count, every random source, every exploration constant", "why_tests_cant": "unbounded iterations and randomness", "anchors": ["src/mcts/simple_mcts.rs: mct_search, select_leaf_node, select_ucb, select_most_visits"]}
{"id": "C28", "title": "mct_search panics when a player cannot move", "statement": "mct_search panics on every unfinished position without valid moves as soon as it runs one iteration; such Backgammon positions are reachable, so the MCTS agent can crash play().", "quantifier": "every stuck position; existence over reachable Backgammon positions", "why_tests_cant": "no test runs the search on a blocked position", "anchors": ["src/mcts/node.rs: expand", "src/mcts/simple_mcts.rs: mct_search", "src/versus.rs: get_actions_for_player"]}
{"id": "C29", "title": "Visit accounting", "statement": "After k iterations of mct_search (k < 2^24) the root has exactly k visits, every other node has at least one, a node that is not the root and not finished has one visit more than its children together, and the root's children's visits add up to k.", "quantifier": "every game, iteration count, random source", "why_tests_cant": "numeric invariant over all runs, in f32 arithmetic", "anchors": ["src/mcts/simple_mcts.rs: backpropagate, mct_search"]}
{"id": "C30", "title": "backpropagate touches exactly the path to the root", "statement": "backpropagate adds one visit and the result to the given node and to each of its ancestors, once, and leaves every other node and every other field unchanged; it terminates on every well-formed store.", "quantifier": "every well-formed store, every node", "why_tests_cant": "frame condition over all trees", "anchors": ["src/mcts/simple_mcts.rs: backpropagate"]}
{"id": "C31", "title": "Rollouts never see a result", "statement": "simulate is meant to return the outcome of a random playout from the node, but it re-checks the node's own state: for every unfinished node it returns 0 for every random playout, even one that ends in a win.", "quantifier": "every game, every unfinished node, every random source, every limit", "why_tests_cant": "a random test cannot show that no playout ever counts", "anchors": ["src/mcts/node.rs: simulate"]}
{"id": "C32", "title": "Final move choice", "statement": "select_most_visits and select_win_pct return the action of a child with maximal visits (win percentage); among equals the last one is chosen; with no child they return EMPTY_MOVE. An incomparable (NaN) score does not cause a panic.", "quantifier": "every store and node", "why_tests_cant": "tie-breaking and NaN behaviour over all score lists", "anchors": ["src/mcts/simple_mcts.rs: select_most_visits, select_win_pct, select_ucb"]}
{"id": "C33", "title": "f32 visit counters are exact up to 2^24 and then stop", "statement": "Adding 1.0 to an f32 counter holding the integer n gives n+1 for 0 <= n < 2^24; at 2^24 the counter no longer changes.", "quantifier": "all n up to 2^24", "why_tests_cant": "2^24 values and the saturation point", "anchors": ["src/mcts/simple_mcts.rs: backpropagate (visits += 1.0)"]}
{"id": "C34", "title": "alpha_mcts cannot search any position with a move", "statement": "alpha_mcts should return a distribution over the valid moves of every unfinished position. It does not: reading the network's [1, actions] policy with double_value(&[code]) leaves a row instead of a number, so for every network and every unfinished position with at least one valid move the call panics; on finished positions and positions without a move it returns None. Moreover an iteration that selects a finished leaf always panics, because it unwraps the winner of the (unfinished) root.", "quantifier": "every game, network, iteration; existence of a concrete TicTacToe run", "why_tests_cant": "depends on the network's priors and noise", "anchors": ["src/mcts/alpha_mcts.rs: alpha_mcts"]}
{"id": "C35", "title": "Priors are normalised over the legal moves", "statement": "In exact arithmetic, turn_policy_to_probs gives zero to every code that is not the code of a legal move, keeps the network's proportions among the legal ones, and sums to one, provided the legal codes are distinct and have positive total policy.", "quantifier": "every policy vector, every node with distinct codes", "why_tests_cant": "all policies and nodes", "anchors": ["src/mcts/utils.rs: turn_policy_to_probs, turn_policy_to_probs_tensor, turn_policy_to_probs_tensor_parallel"]}
{"id": "C36", "title": "Visit distribution and sampled actions", "statement": "get_prob_tensor(_parallel) puts mass exactly on codes of visited children, proportional to their visits, summing to one if any child was visited; hence any index sampled with positive weight decodes to a valid move of the root state, so the assertion in self_play_parallel and play never fails.", "quantifier": "every search tree and every sampled index", "why_tests_cant": "all trees and sampler outcomes", "anchors": ["src/mcts/utils.rs: get_prob_tensor, get_prob_tensor_parallel", "src/alphazero/alphazero.rs: weighted_select_tensor_idx", "src/alphazero/alpha_parallel.rs", "src/versus.rs"]}
{"id": "C37", "title": "Batched search: independence of the hash order", "statement": "The result of alpha_mcts_parallel does not depend on the iteration order of the games HashSet.", "quantifier": "all batches, all orders, all iteration counts", "why_tests_cant": "hash order is randomised per process; tests see one order", "anchors": ["src/mcts/alpha_mcts.rs: alpha_mcts_parallel"]}
{"id": "C38", "title": "Batched search: games contaminate each other", "statement": "One batched iteration should add one visit to each game's root. Because the selected-node vector is never cleared, a game whose selection ended in a finished node re-submits its stale entry (initially node 0, the root of game 0): there is a run in which game 1 adds visits to game 0's root. If no selection hits a finished node each root gains exactly one visit per iteration.", "quantifier": "every batch and iteration (guarded part); existence (violation)", "why_tests_cant": "needs two games where one is about to finish", "anchors": ["src/mcts/alpha_mcts.rs: alpha_mcts_parallel (selected_nodes_idxs)"]}
{"id": "C39", "title": "Match accounting", "statement": "When play() returns, wins_p1 + wins_p2 + draws = n_games = 400 without underflow, the games vector holds every game exactly once, and each game's winner field agrees with the counters. The games were set up one after the other, each with its own draw of the id generator.", "quantifier": "every pair of agents, every random source, every hash order", "why_tests_cant": "all schedules and outcomes", "anchors": ["src/versus.rs: play"]}
{"id": "C40", "title": "Each side starts half of the games", "statement": "Of the 400 games exactly 200 start with player 1 to move and 200 with player 2; dice games start with rolled dice.", "quantifier": "every game type, random source", "why_tests_cant": "over all random sources", "anchors": ["src/versus.rs: play"]}
{"id": "C41", "title": "The round limit does not bound skipped turns", "statement": "play() is meant to draw a game after 400 rounds, but skipped turns bypass the limit check: for some dice sequence two random Backgammon agents never finish a game. A game in which the mover always has a move is removed by round 400 at the latest.", "quantifier": "existence over dice sequences (violation); all runs (guarded part)", "why_tests_cant": "needs an infinite adversarial dice sequence", "anchors": ["src/versus.rs: play (EMPTY_MOVE branch)"]}
{"id": "C42", "title": "Recorded games contain no turns", "statement": "Every game returned by play() has an empty turn list, so a saved game can never be replayed from its file.", "quantifier": "all runs", "why_tests_cant": "over all runs", "anchors": ["src/versus.rs: play, save_game, print_game"]}
{"id": "C43", "title": "Model gate thresholds", "statement": "play_vs_model reports 'new model better' iff at least 220 of 400 games were won and 'old model better' iff at most 180 were won, with f64 rounding taken into account; the best-model file changes only in the first case or when it did not exist; draws count against the new model, so an all-draw match reports 'old model better'.", "quantifier": "all win counts 0..400, all file states", "why_tests_cant": "boundary behaviour in floating point and file states", "anchors": ["src/alphazero/alpha_versus.rs: play_vs_model, play_vs_best_model"]}
{"id": "C44", "title": "Batched self-play terminates", "statement": "self_play_parallel performs at most simulate_round_limit + 1 search rounds and then returns, whatever the search returns and the dice show.", "quantifier": "all batch sizes, limits, random sources, search results", "why_tests_cant": "termination over all behaviours", "anchors": ["src/alphazero/alpha_parallel.rs: self_play_parallel"]}
{"id": "C45", "title": "Self-play samples: labels and multiplicity", "statement": "Every sample of a finished game is labelled +1 for positions of the winner, -1 for the loser, 0 for a draw or a game stopped by the round limit. A game that ends without reaching the limit contributes each recorded position exactly once; a game that reaches the limit and wins in the same round contributes its positions twice with contradictory labels.", "quantifier": "all runs (first part); existence (violation)", "why_tests_cant": "coincidence of limit and win is rare", "anchors": ["src/alphazero/alpha_parallel.rs: self_play_parallel"]}
{"id": "C46", "title": "Sequential self-play and move selection", "statement": "self_play and get_next_move_for_state call alpha_mcts, so self_play panics in every game at the first position that has a move, and get_next_move_for_state panics on every unfinished position with a move and returns EMPTY_MOVE otherwise. Even with a working search, self_play labels every position of a drawn game -1 for both players, whereas self_play_parallel labels it 0.", "quantifier": "all drawn games", "why_tests_cant": "needs a drawn game", "anchors": ["src/alphazero/alpha_no_parallel.rs: self_play", "src/alphazero/alphazero.rs: get_next_move_for_state"]}
{"id": "C47", "title": "Stored policy targets are not distributions", "statement": "The recorded ps is the visit distribution raised in place to 1/temperature without renormalisation: its entries are the f32 shares of the visits by move code, so it sums to one up to 2^-23 when temperature = 1; for every temperature its support is that of the visits (entries may only vanish by underflow) and more visits never get less weight; for temperatures other than 1 it need not sum to one.", "quantifier": "all visit distributions; existence for temperature 1/2", "why_tests_cant": "numeric statement over all distributions", "anchors": ["src/alphazero/alpha_parallel.rs: pow_", "src/alphazero/alpha_no_parallel.rs: pow_"]}
{"id": "C48", "title": "Training batches partition the data", "statement": "train visits every fragment exactly once per call: the batches concatenated are the shuffled memory, every batch is non-empty and has at most training_batch_size fragments and only the last may be smaller; a batch size of zero panics.", "quantifier": "all memory sizes and batch sizes", "why_tests_cant": "all sizes", "anchors": ["src/alphazero/alphazero.rs: train"]}
{"id": "C49", "title": "Training data round-trip", "statement": "For two or more fragments load_training_data(save_training_data(m)) returns the same outcomes, policies and states (states without the leading unit dimension) in order; for exactly one fragment the squeeze calls destroy the batch dimension and loading fails.", "quantifier": "all lists of fragments", "why_tests_cant": "all sizes; the one-element corner", "anchors": ["src/alphazero/alphazero.rs: save_training_data, load_training_data"]}
{"id": "C50", "title": "Learn iterations save cumulative data", "statement": "learn_parallel writes the memory accumulated so far into each sp-i directory, so loading a whole lrn directory yields the fragments of self-play i (n - i) times out of n iterations.", "quantifier": "all numbers of iterations and self-play results", "why_tests_cant": "multiplicity over all sizes", "anchors": ["src/alphazero/alpha_parallel.rs: learn_parallel", "src/main.rs: Train"]}
{"id": "C51", "title": "Training data discovery", "statement": "get_all_paths_rec returns each sp directory below the given directory exactly once when no other entry's name contains 'sp'; for a path that is itself an sp directory it returns nothing, so 'train --run-id --learn --self-play' trains on no data; and a run id containing 'sp' is returned as if it were a data directory.", "quantifier": "all directory trees", "why_tests_cant": "all directory shapes and names", "anchors": ["src/main.rs: get_all_paths_rec, handle_command (Train)"]}
{"id": "C52", "title": "Loading a model into AlphaZero", "statement": "AlphaZero::new with a model path loads before any variable is registered, so the resulting network has its freshly initialised weights whatever the file contains; ResNet::from_path loads after registration and does return the saved weights.", "quantifier": "all files and initialisations", "why_tests_cant": "needs comparing weights over all files", "anchors": ["src/alphazero/alphazero.rs: new", "src/alphazero/nnet.rs: new, from_path"]}
{"id": "C53", "title": "Configuration and command decisions", "statement": "Integer settings are cast with 'as usize': non-negative values are kept, negative ones become 2^64 minus their magnitude instead of an error. The train command accepts exactly the prefix-closed combinations of run_id, learn and self_play and panics on the others; n_cpus above the device count panics and defaults to half.", "quantifier": "all i64 settings, all argument combinations", "why_tests_cant": "all values", "anchors": ["src/lib.rs: MctsConfig::from_config", "src/alphazero/alphazero.rs: AlphaZeroConfig::from_config", "src/main.rs: main, handle_command"]}
{"id": "C54", "title": "Batched search never panics and builds one tree per game", "statement": "For any network with the right output shapes, a positive Dirichlet parameter and a non-empty batch of positions, alpha_mcts_parallel returns without panic; the store holds one tree for each position of the batch, the roots first; every other node is the child of an earlier node reached by a valid move; every node has either no children or exactly one child per valid move in order.", "quantifier": "every game satisfying the trait's contract, every network, batch, configuration, hash order and random stream", "why_tests_cant": "needs a trained network and covers unboundedly many trees and dice outcomes", "anchors": ["src/mcts/alpha_mcts.rs: alpha_mcts_parallel", "src/mcts/node.rs: alpha_expand_tensor"]}
{"id": "C55", "title": "Matches panic only for known reasons", "statement": "play() panics only when an Mcts agent has to move in an unfinished position without a valid move, or (debug build) when the 32-bit round counter overflows after 2^31 rounds; the first does happen in Backgammon.", "quantifier": "all pairs of agents, networks, configurations, hash orders, random streams", "why_tests_cant": "panic freedom over whole matches depends on every dice sequence, every hash order and every network", "anchors": ["src/versus.rs: play, get_actions_for_player"]}
{"id": "C56", "title": "A replay shows only the first position", "statement": "print_game prints the initial position and then, after every recorded turn, the initial position again; no other position is ever shown, whatever the file contains.", "quantifier": "all game files", "why_tests_cant": "files can hold any list of turns", "anchors": ["src/versus.rs: print_game"]}
{"id": "C57", "title": "Network shapes", "statement": "For a batch of positions with the game's number of channels and points, the forward passes return without a shape error one row of action values per position (as long as the game's action space) and one value per position; the positions of both games and every training batch of their fragments, fresh or loaded, are of that kind.", "quantifier": "all batch sizes, constants and positions", "why_tests_cant": "needs libtorch and covers all batch sizes and both data sources", "anchors": ["src/alphazero/nnet.rs: new, forward_t, forward_train, forward_policy", "src/alphazero/alphazero.rs: train"]}
{"id": "C58", "title": "A model agent without a model path", "statement": "The play command accepts a model agent without a model path and builds a player without a network; every match with such a player panics, whatever the other player, the settings and the dice.", "quantifier": "all players, settings, hash orders, random streams", "why_tests_cant": "covers all settings and executions of a match", "anchors": ["src/main.rs: handle_command (Play)", "src/versus.rs: get_actions_for_player, play"]}
{"id": "C64", "title": "Every move of a match is the choice of the agent on turn", "statement": "In a match the position of every open game after any number of rounds, and the last move of every finished game, result from answers of the agent that plays the player on turn (player 1 is -1 on the board): a random agent answers a valid move (each of them is possible), an Mcts agent the result of its own tree search for the player on turn, a model agent a move drawn from the tempered visits of a search guided by its own network; the empty move is answered only for a skipped turn.", "quantifier": "all games meeting the interface (TicTacToe, Backgammon), agents, networks, settings, hash orders, random streams, rounds", "why_tests_cant": "answers are computed in batches per player and zipped back onto the games by index; tests see no game mixed up only for the orders they happen to run", "anchors": ["src/versus.rs: play, get_actions_for_player"]}
{"id": "C63", "title": "Weights through the learning loop", "statement": "In a run of learn_parallel or learn every self-play of an iteration uses the weights the iteration started with; the next weights result from num_epochs passes over all fragments of these self-plays, each pass using every fragment exactly once in batches; learn_parallel checks exactly these weights for NaN and sends them to saving and the match, learn saves them as model_i; the weights after the last iteration are the result.", "quantifier": "all self-play functions, optimisers, gates, iteration counts, batch sizes, random streams", "why_tests_cant": "holds for every optimiser and every number of iterations; a test would need a full training run", "anchors": ["src/alphazero/alpha_parallel.rs: learn_parallel", "src/alphazero/alpha_no_parallel.rs: learn", "src/alphazero/alphazero.rs: train"]}
{"id": "C65", "title": "The three forward passes agree", "statement": "For all layers and weights and every input: forward_policy returns the policy of forward_t, and forward_train returns the value of forward_t and a policy whose softmax is the policy of forward_t (so the search at the root, the search below it and the training see the same network).", "quantifier": "all layer functions, weights, inputs, network sizes, train flags", "why_tests_cant": "a test fixes the weights and compares floats; the statement is about all of them", "anchors": ["src/alphazero/nnet.rs: forward_t, forward_train, forward_policy"]}
{"id": "C59", "title": "Selection follows the largest confidence bound", "statement": "In every search tree whose child scores are numbers, selection descends from the root to the child with the largest bound (last among equals) until a node that is childless or, in the plain search, has an untried move. The plain search's scores are numbers for up to 2^24 iterations; those of the batched network search are numbers for bounded values and proper priors. If no child's score is a number the network-guided selection takes the last child.", "quantifier": "all games, trees, constants, logarithms, networks, iteration counts up to 2^24", "why_tests_cant": "the trees of all searches are infinitely many; ties and NaN are rarely hit by tests", "anchors": ["src/mcts/node.rs:86 ucb", "src/mcts/node.rs alpha_ucb", "src/mcts/simple_mcts.rs:88 select_leaf_node", "src/mcts/alpha_mcts.rs:22 select_alpha"]}
{"id": "C60", "title": "Priors in the trees are the network's masked policy", "statement": "After a batched search every child of a root has as prior the network's policy of the root position mixed with the one noise sample, masked to valid moves and divided by the sum; every other child the network's masked and divided policy of its parent's position without noise.", "quantifier": "all games satisfying the interface, networks, sums, noise samples, configurations, batches, iteration orders", "why_tests_cant": "relates every node of every tree to the network's output at its own parent's position, for all batches and visiting orders", "anchors": ["src/mcts/alpha_mcts.rs: alpha_mcts_parallel", "src/mcts/node.rs: alpha_expand_tensor"]}
{"id": "C61", "title": "Where the values in the batched trees come from", "statement": "After a batched search there is a list of reports such that visits and value of each node are the f32 sums over reports at the node or below it; each report is the finished result for the player to move at the root of its own tree, or the network's value for that node's own position, unchanged in sign on the way up.", "quantifier": "all games satisfying the interface, networks, configurations, batches, iteration orders", "why_tests_cant": "a swapped batch index or a report sent into another game's tree is invisible in final policies of a single run", "anchors": ["src/mcts/alpha_mcts.rs: alpha_mcts_parallel", "src/mcts/simple_mcts.rs:96 backpropagate"]}
{"id": "C62", "title": "Where the values in the plain search tree come from", "statement": "After k iterations of the plain search there is a list of k evaluated nodes, every unfinished node but the root once and every node but the root at least once; visits of a node count the entries at or below it and its value is the sum of their results, unfinished positions counting 0 whatever the random playout did. Without a finished node all values are 0.", "quantifier": "all games, logarithms, positions, players, random streams, up to 2^24 iterations", "why_tests_cant": "that the random playouts never influence the search shows only in the relation between all nodes of all trees", "anchors": ["src/mcts/simple_mcts.rs: mct_search, backpropagate", "src/mcts/node.rs: simulate, expand"]}
{"id": "C66", "title": "A saved game is loaded unchanged", "statement": "For every game of Tic-Tac-Toe or Backgammon (any id text, any turns, rolls and positions within the ranges of their Rust types) load_game on the file written by save_game gives the same game. In general the pretty printer is injective and the parser is its left inverse on all JSON values nested less than 128 deep.", "quantifier": "all games, all ids including quotes, backslashes and control characters, all values of the field types", "why_tests_cant": "round trips over all texts and all integers", "anchors": ["src/versus.rs: save_game, load_game, Game, Turn, Agent", "src/backgammon/backgammon_logic.rs: Backgammon", "src/tictactoe/mod.rs: TicTacToe"]}
{"id": "C67", "title": "What load_game accepts", "statement": "Whatever the contents of a file, a game that load_game returns has all its values within the ranges of the Rust types and survives saving and loading. The order of the fields is free and unknown fields are ignored; a game object with a field missing or given twice is rejected. Nothing else is checked: a Backgammon game with an impossible position is loaded (refuted by a file with an empty board).", "quantifier": "all file contents", "why_tests_cant": "files are arbitrary texts", "anchors": ["src/versus.rs: load_game"]}
{"id": "C68", "title": "Directories of saved games", "statement": "Games with different ids saved into a directory that has no file of their names are all given back by load_all_games, each once, together with the games that were there, in whatever order the directory is read; with equal ids the later game replaces the earlier one. load_all_games fails exactly when some file ending in .json does not load. If the drawn ids differ, the 400 games of a match of either game come back in this way from the directory given to the play command.", "quantifier": "all lists of games, all directories, all reading orders, all matches", "why_tests_cant": "directories and matches are unbounded", "anchors": ["src/versus.rs: save_game, load_all_games, play", "src/main.rs: play command"]}
{"id": "C69", "title": "Pictures of positions", "statement": "to_pretty_str of a Backgammon position whose points are not -128 never panics and shows, line by line, the turn, the roll, bar and collected checkers and for every point its checkers (up to five symbols and the number of further ones); two positions with the same text have the same board, roll and, in a game, player. The same for the board of Tic-Tac-Toe. Not shown are the second-play flag and, in Tic-Tac-Toe, the player; a point of -128 panics in debug builds and looks empty in release builds.", "quantifier": "all positions, both build profiles", "why_tests_cant": "the number of positions", "anchors": ["src/backgammon/backgammon_logic.rs: to_pretty_str", "src/tictactoe/mod.rs: to_pretty_str"]}
{"id": "C70", "title": "Printed search trees", "statement": "pretty_print of a node of any tree that a search has built returns and prints exactly the nodes at most depth steps below it, each once and with its own action, visits, value and scores; every line but the first stands below the line of its parent, the nearest one above that is indented one step less. With enough depth all nodes of the tree are printed.", "quantifier": "all games, all trees of the plain and of the network-guided search, all nodes and depths", "why_tests_cant": "trees are unbounded", "anchors": ["src/mcts/node_store.rs: pretty_print, _pretty_print"]}
{"id": "C71", "title": "Text of a match result", "statement": "The displayed result of a match names the two agents, the numbers of games won by each, the draws and 400 games. The displayed winning rate lies between 0 and 100, increases strictly with the number of games won and is at most 2^-45 from the exact percentage; it differs from the f64 nearest to the percentage for exactly 35 numbers of wins, for example 7.", "quantifier": "all matches, all numbers of wins", "why_tests_cant": "all runs of matches; all 401 rates", "anchors": ["src/versus.rs: Display for PlayResult, play"]}
{"id": "C72", "title": "Replaying a saved game", "statement": "The text of the replay command is determined: header, first position, and for each turn its data followed by the picture of the first position again. For every game of a match saved by the play command it consists of the header and the picture of the first position, without any move.", "quantifier": "all files, all matches", "why_tests_cant": "all files and runs", "anchors": ["src/versus.rs: print_game, save_game", "src/main.rs: replay command"]}
{"id": "C73", "title": "Search guided by an exact network", "statement": "It is not the case that with a network which knows the worth of every Tic-Tac-Toe position for the player to move (the quantity the value head is trained towards, C45) the search avoids losing moves: in a drawn position reached in play, with the example settings, a losing move becomes strictly the most visited one, with 20 as well as with 200 iterations, although four other moves draw.", "quantifier": "existence (violation)", "why_tests_cant": "a trained network is never exact; weak play is then put down to training", "anchors": ["src/mcts/alpha_mcts.rs: alpha_mcts_parallel", "src/mcts/node.rs: backpropagate, alpha_ucb", "src/alphazero/alpha_parallel.rs: self_play_parallel"]}
{"id": "C74", "title": "Plain search and immediate threats", "statement": "It is not the case that the plain search avoids an immediate loss where it can: in a drawn Tic-Tac-Toe position reached in play, with the example settings (100 iterations, exploration constant 2), it returns a legal move after which the opponent wins with the next move, although a block is available.", "quantifier": "existence (violation)", "why_tests_cant": "the search is random and its strength is not asserted anywhere", "anchors": ["src/mcts/simple_mcts.rs: mct_search, select_leaf_node", "src/mcts/node.rs: ucb, backpropagate"]}
{"id": "C75", "title": "Plain search and immediate wins", "statement": "If some move wins at once, the plain search returns a move that wins at once, if it makes enough iterations: more than n-1 per valid move (and at most 2^14), where 3n (2 <= n <= 16) bounds the exploration constant times the logarithm of the number of visits; with the example settings 28 iterations are enough in Tic-Tac-Toe. With no more iterations than valid moves the results are ignored: k iterations return the k-th move from the end of the list of valid moves, even if it does not win and another move does.", "quantifier": "all games, positions, random streams, logarithms and settings within the bounds", "why_tests_cant": "all random streams and positions; the rounding of f32 scores decides which child is visited", "anchors": ["src/mcts/simple_mcts.rs: mct_search, select_ucb, select_most_visits, backpropagate", "src/mcts/node.rs: ucb, expand, simulate"]}
{"id": "C76", "title": "Architecture and variables of the network", "statement": "The forward pass applies a convolution, normalisation and relu, then the residual blocks, then the policy and the value head to the same features, with a softmax on the policy only. The variables are registered in a fixed order with fixed shapes, exactly weights and biases are trainable, and training adjusts 321262 numbers for TicTacToe and 23577594 for Backgammon. In the file a variable whose base name was used before gets its position as suffix, and the network of one game panics on the file of the other.", "quantifier": "all layer functions, weights, constants, files and orders of files", "why_tests_cant": "needs libtorch and holds for all weights and files", "anchors": ["src/alphazero/nnet.rs: new, from_path, forward_t", "src/backgammon/backgammon_logic.rs: constants", "src/tictactoe/mod.rs: constants"]}
{"id": "C77", "title": "The commands train, learn and play as a whole", "statement": "train and learn give the same result whatever readable model file is given with --model-path (it is loaded and then dropped for new weights), and panic on an unreadable one. train makes one shuffled pass in batches over all fragments found below the data path, from new weights, depends on batch size, weight decay and learning rate only (not on the number of epochs), and writes to the given file or to ./models/<game>/trained_model.ot. learn runs learn_iterations rounds of self-play, training, the check for NaN and the match against the best model, with the configured sizes. play uses the agents and models named on the command line and leaves exactly its 400 games in the output directory beside what was there.", "quantifier": "all arguments, settings, file systems, model files, optimisers, networks, random streams and orders", "why_tests_cant": "needs libtorch, a data directory and hours of computation for a single run", "anchors": ["src/main.rs: handle_command", "src/alphazero/alphazero.rs: from_config, new, train, learn_parallel"]}
{"id": "C78", "title": "Move trees and the public functions of move generation", "statement": "The sequences extracted from a move tree are its root-to-leaf branches from left to right. Of the sequences leading to the same board exactly the first is kept, and a panic occurs exactly if some sequence cannot be carried out. For any list of dice, get_normal_moves (nothing on the bar) and get_entry_moves (something on the bar) return trees whose branches are plays by the rules, every legal play begins one of them, and with no opposing checker at home they are exactly the maximal legal plays. Called in the other situation, get_entry_moves panics as soon as an entry point is open and get_normal_moves offers illegal moves. is_collectible holds exactly if all checkers are at home. Different trees are printed differently.", "quantifier": "all trees, boards with 15 checkers a side, lists of dice of any length, sequences and both profiles", "why_tests_cant": "the tests check single boards; trees and boards are unboundedly many", "anchors": ["src/backgammon/backgammon_logic.rs: get_normal_moves, get_entry_moves, is_collectible, extract_sequences_list, extract_sequences_node, remove_duplicate_states, ActionNode::format_tree, init_with_fields"]}
{"id": "C79", "title": "Both games keep the laws the search, training and matches rely on", "statement": "In all positions of both games: equality of moves is decided correctly; codes of valid moves lie in the action space and decode to the move; the action space is no larger than needed; the empty move is never a valid move; an id can be set and read back, is ignored by moves, outcome, network input and codec, and is kept by apply_move, skip_turn and roll_die; a deterministic game uses no randomness and panics on roll_die; rolling dice changes neither the player to move nor the outcome; skip_turn passes the turn. The code of the empty move is inside the action space in Backgammon (the last code) but outside of it in Tic-Tac-Toe.", "quantifier": "all positions, moves, codes, ids, random streams and both profiles", "why_tests_cant": "laws over all positions and ids; the tests use a few boards", "anchors": ["src/base.rs: LearnableGame", "src/tictactoe/mod.rs: impl LearnableGame", "src/backgammon/backgammon_logic.rs: impl LearnableGame"]}
{"id": "C80", "title": "Races end, other games need not, and deadlocks do not occur", "statement": "Once nobody is on the bar and the players have passed each other, the player to move always has a move until the game is over; the players stay apart; every move reduces the total pip count, so whatever is played and rolled there are at most as many moves as pips are left, and the game can be played until somebody has won. The plain search therefore finds a valid move in every unfinished race, whereas it panics in other positions where a player cannot move. If both players were on the bar against closed boards, turns would be skipped for ever; but no sequence of calls of the public functions leads from the start to such a position. Before the players have passed each other there is no bound: from the opening games of any length can be played, with turns skipped only for want of a move, and there is a position in such a game from which with suitable dice the players have exactly one move each time without end.", "quantifier": "all well-formed race positions, all sequences of valid moves and skipped turns, all dice; all reachable positions; both profiles", "why_tests_cant": "termination and unreachability over all plays and dice", "anchors": ["src/backgammon/backgammon_logic.rs: get_valid_moves", "src/backgammon/backgammon_logic.rs: apply_move", "src/backgammon/backgammon_logic.rs: skip_turn", "src/backgammon/backgammon_logic.rs: check_winner", "src/mcts/simple_mcts.rs: mct_search"]}
