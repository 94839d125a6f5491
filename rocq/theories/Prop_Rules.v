(** * Prop_Rules: C79 — both games keep what the rest of the program expects of a game. *)
From Verif Require Import Base BgModel BgSpec BgTurn BgReach BgWitness EncModel TttModel TttSpec GameModel GameFacts RulesSpec RulesApi.
Local Open Scope Z_scope.

(** C79.  The laws of a game ([lawful]: codes, empty move, ids, randomness, dice, turns) hold for all
    positions of both games. *)
Theorem C79_tictactoe : forall pr, lawful (ttt_game pr) ttt_pos.
Proof. exact C79_tictactoe_lemma. Qed.
Print Assumptions C79_tictactoe.
Theorem C79_backgammon : forall pr, lawful (bg_game pr) bg_pos.
Proof. exact C79_backgammon_lemma. Qed.
Print Assumptions C79_backgammon.
(** C79, violation.  The code of the empty move is the last one of the action space in Backgammon, but
    lies outside of it in Tic-Tac-Toe. *)
Theorem C79_empty_code_refuted : forall pr, (forall s, g_encode (ttt_game pr) s (g_empty (ttt_game pr)) = Ok 10 /\ g_actions (ttt_game pr) = 9)
  /\ forall s, g_encode (bg_game pr) s (g_empty (bg_game pr)) = Ok 1351 /\ g_actions (bg_game pr) = 1352.
Proof. exact C79_empty_code_refuted_lemma. Qed.
Print Assumptions C79_empty_code_refuted.

Example C79_positions : forall pr, ttt_pos (g_new (ttt_game pr)) /\ bg_pos st_lowdie /\ exists m ms, g_valid (bg_game pr) st_lowdie = Ok (m :: ms).
Proof.
  intros pr. split; [split; [reflexivity|now left]|]. split; [exact (game_pos pr _ (game_lowdie pr))|]. cbn [bg_game g_valid]. destruct pr; vm_compute; eauto.
Qed.
