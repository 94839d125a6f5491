(** * TttSpec: the rules of TicTacToe on a 3x3 grid, independent of the code. *)
From Verif Require Import Base TttModel.

(** content of row r, column c *)
Definition at_rc (b : list Z) (r c : Z) : Z := cell b (3 * r + c).
Definition in3 (i : Z) : Prop := 0 <= i <= 2.
(** player p owns a row, a column or a diagonal *)
Definition owns_line (b : list Z) (p : Z) : Prop :=
  (exists r, in3 r /\ forall c, in3 c -> at_rc b r c = p)
  \/ (exists c, in3 c /\ forall r, in3 r -> at_rc b r c = p)
  \/ (forall k, in3 k -> at_rc b k k = p)
  \/ (forall k, in3 k -> at_rc b k (2 - k) = p).
Definition full_board (b : list Z) : Prop := forall i, 0 <= i < 9 -> cell b i <> 0.

(** Histories: [n] moves made so far; moves are made only while there is no result
    (as every driver of the program does); [skip_turn] and [set_id] at any time. *)
Inductive tgame (pr : profile) : nat -> ttt -> Prop :=
| tg_new : tgame pr 0 ttt_new
| tg_skip n s s' : tgame pr n s -> ttt_skip_turn pr s = Ok s' -> tgame pr n s'
| tg_id n s k : tgame pr n s -> tgame pr n (mkTtt (tplayer s) (tboard s) k)
| tg_move n s m s' : tgame pr n s -> ttt_check_winner s = None -> In m (ttt_valid_moves s) ->
    ttt_apply_move pr s m = Ok s' -> tgame pr (S n) s'.
