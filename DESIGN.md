# DESIGN — a Rocq model of alibasaran/die-e

Source: /repo (Rust).  Nothing here builds or runs the Rust code.  The tie between the model and the
code is the reading of the source: every model definition cites file and lines.  As a check of that
reading, `RepoTests.v` restates every assertion of the project's own test files (`tests/*.rs`, 46
codec cases and all Backgammon, TicTacToe and search utility tests) for the model and computes it;
the only one that does not hold is a stale test about doubles (explained there).

## Trusted base

* Coq 8.16.1's kernel (with its virtual machine, used by `vm_compute` in proofs; `coqchk` re-checks
  the proofs without it).
* Axioms: none.  `Print Assumptions` follows every theorem of the `Prop_*.v` files and prints
  "Closed under the global context" for each of them.  (`coqchk` lists seven constants of
  `Coq.ssr.ssrunder.Under_rel`, a module type of the standard library loaded by `lia`; no theorem
  here depends on them.)
* That the model is the code: the definitions of the model files below.
* That the statements mean what the property texts say: the `*Spec.v` files and `Prop_*.v`.

No axioms, parameters, functors or module types of our own; no admitted proofs; no plugins.

## What is modelled

Model files contain definitions only; the abbreviations (BL, SM, ...) are explained at their top.

| model file | code | functions |
|---|---|---|
| `Base.v`, `F32.v`, `Tensor.v` | language and library primitives | panics, i8/u8/i32/usize arithmetic by build profile, array access, random source, IEEE f32/f64, the tensor operations used |
| `BgModel.v` | `src/backgammon/backgammon_logic.rs` | everything but `fmt`, `format_tree`, `name`, and printing (see `ShowModel.v`) |
| `EncModel.v` | `src/backgammon/encoding.rs`, `backgammon_logic.rs:262-401` | both copies of `encode`, `decode` |
| `BgTensor.v` | `backgammon_logic.rs:198-252`, `tictactoe/mod.rs:81-92` | both `as_tensor` |
| `TttModel.v` | `src/tictactoe/mod.rs` | everything but `name` |
| `GameModel.v` | `src/base.rs` | the trait `LearnableGame` as a record, both instances |
| `McModel.v` | `src/mcts/node.rs`, `node_store.rs`, `simple_mcts.rs` | everything but printing (see `ShowModel.v`) |
| `AlphaModel.v` | `src/mcts/alpha_mcts.rs`, `utils.rs`, `noise.rs` | all functions |
| `SampleModel.v` | `alphazero.rs:129-137` | `weighted_select_tensor_idx`, rand's `WeightedIndex` |
| `SelfModel.v` | `alpha_parallel.rs:101-231`, `alpha_no_parallel.rs:32-83`, `alphazero.rs:139-147` | both self-plays, `get_next_move_for_state` |
| `VersusModel.v`, `GateModel.v` | `src/versus.rs`, `alpha_versus.rs` | `play`, `get_actions_for_player`, replay of `print_game`, `play_vs_model`, `play_vs_best_model` |
| `JsonModel.v` | `src/versus.rs:17-35, 54-73, 107-122`, the derived (de)serialisers of both games, `main.rs:168-170` | `save_game`, `load_game`, `load_all_games`, saving of a match; serde and serde_json for these types |
| `ShowModel.v` | `backgammon_logic.rs:110-174`, `tictactoe/mod.rs:110-116`, `node_store.rs:67-94`, `versus.rs:75-105, 141-152`, `main.rs:208-213` | both `to_pretty_str`, `pretty_print` of a search tree (which lines, not how numbers are formatted), the text of a match result, the text of a replay |
| `TrainModel.v` | `alphazero.rs:149-261`, `alpha_parallel.rs:17-99`, `alpha_no_parallel.rs:8-30` | saving and loading of data, `train`, both learning loops |
| `FilesModel.v` | `src/main.rs:178-231` | the train command, `get_all_paths_rec` |
| `TreeModel.v` | `backgammon_logic.rs:21-52` | move trees as text |
| `CommandModel.v` | `main.rs:117-207`, `alphazero.rs:113-127` | the commands train, learn and play put together from the other parts |
| `NetModel.v` | `nnet.rs`, `alphazero.rs:81-111`, tch's variable store | names and shapes of all variables, loading, optimiser groups, the three forward passes |
| `ConfigModel.v` | `src/lib.rs`, `alphazero.rs:34-127`, `main.rs:97-177` | all settings, the command line decisions |

### Choices

* A panic is a value: `res A = Ok a | Panic reason`.  Recursions without an evident measure run on
  fuel and give `Panic PFuel` without it; the theorems show that this outcome does not occur.
* Machine integers are `Z` with range checks; `profile = Debug | Release` selects panic or wrap on
  overflow.  Theorems hold for both.
* Randomness is a stream of numbers read from left to right.  Theorems quantify over the stream, so
  over all dice, choices and interleavings of threads' draws.
* The iteration order of a `HashMap`/`HashSet` is a parameter (any permutation).
* f32 and f64 are the standard library's `SpecFloat` (round to nearest even, one NaN).
* Arbitrary functions, over which the theorems quantify: the network (policy and value heads as
  functions on tensors), `f32::ln`, libtorch's `sum` (unspecified order), the Dirichlet sampler, the
  uniform sampler, `pow`, `nanoid`, the optimiser step, the layers of the network in C65.
  Assumptions about them (such as "a uniform sample of [0, t) lies in [0, t)") are hypotheses of
  the theorems that need them, and are satisfied by the concrete functions of `Witness.v`.

* serde and serde_json are not in the repository.  `JsonModel.v` states their behaviour for the types
  at hand (pretty printer, parser with its nesting limit, derived readers); this is trusted, like the
  other library primitives.  Creating and writing a file is assumed to succeed.

### Not modelled

GPU numerics, libtorch's kernels and gradients; rayon's scheduling (only its effect on random draws);
progress bars, colours, the formatting of floating point numbers, and console output other than in `ShowModel.v`; the text formats of configuration files and of `clap`;
file-system failures other than the ones in the files named above; memory limits; the benches.

## How the theorems are organised

* `*Spec.v`: what the property means, without the model's helpers (rule book of Backgammon over
  counts, lines on a 3x3 grid, search trees, books of a match, ...).
* `*Proof.v`, `*Facts.v`, `*Api*.v`, ...: lemmas.  `Cxx_name_lemma` is the final form of a theorem.
* `Prop_*.v`: the theorems listed in MANIFEST.json, each `exact Cxx_..._lemma`, followed by
  `Print Assumptions` and by an example showing that its hypotheses can be met (or that a refuting
  witness is a real run).
* A property that is false of the code is kept in `properties.jsonl` in the form that is true of
  the code; the violation is a theorem named `..._refuted` with a concrete reachable witness, next to
  the strongest true restriction we found.

## Per property

Backgammon (`Prop_Bg.v`; invariant: 24 points, 15 checkers each; rule book `BgSpec.v`)
* C01, C02: the invariant is preserved by all API calls; no arithmetic leaves its range under it.
* C03-C05, C12: `next_action` refines the rule book's single move, the generator offers exactly the
  allowed ones except for one bear-off case; induction over the dice.  The exception is refuted by
  games replayed from the start position (`BgWitness.v`).
* C06, C08-C11, C13-C15: from these lemmas; C08, C09 with replayed witnesses.
* C07, C16-C19 (`Prop_Enc.v`): case analysis of one- and two-step plays; C18 sweeps the code space.
* C20, C25 (`Prop_Ttt.v`): index equations of the tensors.  C21-C24: TicTacToe.

Plain search (`Prop_Mc.v`, any game): C26-C30, C32 by an invariant over iterations; C31 the playout looks
only at the starting position; C33 f32 counters stop at 2^24.  `Prop_Log.v`: C59 selection, C62 origin of all values.

Network search (`Prop_Alpha.v`): C34 sequential version; C35 priors; C36 visit distributions in f32; C37
independence of the order of the games; C38 visit counts (a stale selection re-expands: refuted by a
run); C54 structure of the forest.  `Prop_Log.v`: C60 origin of the priors, C61 origin of the values.

Matches (`Prop_Versus.v`): C39-C43, C55, C56, C64 by an invariant over rounds; endless and panicking matches are
constructed in `VersusStuck.v`; C43 sweeps 0..400 wins in binary64.
Saved games (`Prop_Json.v`): C66 the reader inverts the printer, by induction over JSON values; C67 what the
readers accept; C68 directories, composed with C39 and C42 for the games of a match.

Console (`Prop_Show.v`): C69 pictures of positions, by splitting texts at separators; C70 printed trees, by
induction on the depth, nodes below different children being different; C71 the result of a match, the 401
possible winning rates by computation; C72 replays, composed from C39, C42, C66 and C69.

Playing strength (`Prop_Seek.v`; worth of a position by backward induction, `SeekSpec.v`): C73, C74 refuted by
computed searches in Tic-Tac-Toe.  C73: `backpropagate` adds the network's value, which is meant for the player
to move at the evaluated node, to all ancestors without change of sign.  C74: at the opponent's nodes, too, the
plain search selects what is best for the searching player.  C75 (`WinProof.v`): winning moves have the mean
value 1 and are leaves, other moves have at least one result below 1; the invariant over the iterations is that
no other move has more visits than a winning one, and fewer from `n` visits on.  It needs that the difference
of the mean values outweighs the difference of the bonuses in rounded arithmetic (`GapFacts.v`: relative errors
of `f32` division and square root, addition on a grid).

Self-play (`Prop_Self.v`): C44-C47.  Training (`Prop_Train.v`): C48-C50, C63.  Files (`Prop_Files.v`): C51.
Network (`Prop_Net.v`): C52, C57, C65, C76 by unfolding and induction over the list of variables.  Settings (`Prop_Config.v`): C53, C58.  The games as instances of the trait (`Prop_Rules.v`): C79, from C16, C17, C24 and by computation.  Move trees (`Prop_Tree.v`): C78, by induction over trees and lists of sequences; the rules come from `BgSpec.v`.  Commands (`Prop_Command.v`): C77, by putting the theorems about the parts together.  Races (`Prop_Race.v`): C80, from C05 and C13: the rearmost checker can always be moved, and no checker is hit any more.

## Testing the theorems

`seeded/LOG.jsonl` lists wrong programs made by editing one model definition in a scratch copy,
with the theorems whose proofs no longer go through.  A proof script may fail although its
statement is still true; so each surviving or doubtful edit was looked at, and where no statement
spoke about the edited behaviour a theorem was added or tightened (field `theorems_tightened`).
