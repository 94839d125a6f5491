(** * Prop_Bg: property theorems for the Backgammon engine (C01-C15).
    Model: BgModel.v.  Rule book: BgSpec.v ([legal], [loose], [stuck], [turn], [effect],
    [checkers], [pips], [view], [WF]).  Histories: BgReach.v ([reach]: any API calls;
    [game]: proper games, dice re-rolled only by skip/apply).  *)
From Verif Require Import Base BgModel BgSpec BgStep BgGen BgTurn BgReach BgPips BgMirror BgWitness BgApi.
From Coq Require Import Permutation.

(** Beside the theorems, concrete reachable positions [st_*] (BgWitness.v) show that
    the hypotheses are met by non-trivial states. *)
Example reachable_states : forall pr, reach pr st_illegal1 /\ reach pr st_lowdie /\ reach pr st_stuck.
Proof. intros pr. repeat split; apply game_reach; [apply game_illegal1|apply game_lowdie|apply game_stuck]. Qed.

(** C01: 15 checkers a side, 24 points, no negative counter, [is_valid] never panics
    (in either build profile), after every history of API calls. *)
Theorem C01_conservation : forall pr st, reach pr st ->
  length (pts (bgboard st)) = 24%nat
  /\ 0 <= hit1 (bgboard st) /\ 0 <= hit2 (bgboard st) /\ 0 <= col1 (bgboard st) /\ 0 <= col2 (bgboard st)
  /\ (forall s, checkers (view (bgboard st)) s = 15)
  /\ (forall pr', bg_is_valid pr' st = Ok tt).
Proof. exact C01_conservation_lemma. Qed.
Print Assumptions C01_conservation.

(** test: [is_valid] does reject a board with a missing checker *)
Example C01_is_valid_rejects :
  bg_is_valid Debug (mkBg (mkBoard (1 :: tl (pts initial_board)) 0 0 0 0) (0, 0) (-1) false 0) = Panic PAssert.
Proof. reflexivity. Qed.

(** C02: with rolled dice, [get_valid_moves] and [apply_move] on its results return
    normally, with the same result in debug and release builds. *)
Theorem C02_no_panic : forall pr st, reach pr st -> rolled (roll st) ->
  exists mvs, (forall pr', bg_valid_moves pr' st = Ok mvs)
  /\ forall m r, In m mvs -> exists st' r', forall pr', bg_apply_move pr' st m r = Ok (st', r').
Proof. exact C02_no_panic_lemma. Qed.
Print Assumptions C02_no_panic.

(** C02: before any roll the call panics; reachable states are either in that
    condition or have dice in 1..=6. *)
Theorem C02_before_roll : forall pr st, (roll st = (0, 0) -> bg_valid_moves pr st = Panic PAssert)
  /\ (reach pr st -> roll st = (0, 0) \/ rolled (roll st)).
Proof. exact C02_before_roll_lemma. Qed.
Print Assumptions C02_before_roll.

Example C02_hyps : forall pr, reach pr st_lowdie /\ rolled (roll st_lowdie) /\ mvs_lowdie <> [].
Proof. intros pr. split; [apply game_reach, game_lowdie|]. split; [apply (game_rolled pr), game_lowdie|discriminate]. Qed.

(** C03: every returned move is a sequence of rule-conforming uses of the two dice
    ([loose]: standard rules, bearing off with any die at least the distance), stopping
    early only when no legal step is left. *)
Theorem C03_sound : forall pr st s mvs m,
  WF (bgboard st) -> rolled (roll st) -> mover st s ->
  bg_valid_moves pr st = Ok mvs -> In m mvs ->
  exists ms, ms <> [] /\ m = map act_of ms
    /\ play (loose s) (stuck s) s [fst (roll st); snd (roll st)] (view (bgboard st)) ms.
Proof. exact C03_sound_lemma. Qed.
Print Assumptions C03_sound.

Example C03_hyps : WF (bgboard st_onestep) /\ rolled (roll st_onestep) /\ mover st_onestep P2
  /\ bg_valid_moves Debug st_onestep = Ok mvs_onestep /\ In [(0, 2); (2, 8)] mvs_onestep.
Proof. split; [apply wfb_spec; reflexivity|]. split; [apply (game_rolled Debug), game_onestep|]. split; [reflexivity|]. split; [apply moves_onestep|now left]. Qed.

(** C04 (guarded): with no opposing checker in the mover's home board, every returned
    move obeys the full standard rules, bear-offs included. *)
Theorem C04_bear_off_guarded : forall pr st s mvs m,
  WF (bgboard st) -> rolled (roll st) -> mover st s -> clear_home (view (bgboard st)) s ->
  bg_valid_moves pr st = Ok mvs -> In m mvs ->
  exists ms, ms <> [] /\ m = map act_of ms
    /\ turn s [fst (roll st); snd (roll st)] (view (bgboard st)) ms.
Proof. exact C04_bear_off_guarded_lemma. Qed.
Print Assumptions C04_bear_off_guarded.

(** C04 (violation): for each side there is a position of a proper game in which a
    returned move starts with a bear-off that no die permits. *)
Theorem C04_bear_off_refuted : forall pr s, exists st mvs i rest,
  game pr st /\ mover st s /\ bg_valid_moves pr st = Ok mvs
  /\ In ((i, -1) :: rest) mvs
  /\ forall d, In d [fst (roll st); snd (roll st)] -> ~ legal s d (view (bgboard st)) (Off i).
Proof. exact C04_bear_off_refuted_lemma. Qed.
Print Assumptions C04_bear_off_refuted.

(** C05: with a clear home board every non-empty maximal legal play of the two dice
    is matched by a returned move leading to exactly that position. *)
Theorem C05_complete : forall pr st s mvs ms,
  WF (bgboard st) -> rolled (roll st) -> mover st s -> clear_home (view (bgboard st)) s ->
  bg_valid_moves pr st = Ok mvs -> ms <> [] ->
  turn s [fst (roll st); snd (roll st)] (view (bgboard st)) ms ->
  exists m b', In m mvs /\ get_next_state pr (bgboard st) m (player st) = Ok b'
    /\ pos_eq (view b') (effects (view (bgboard st)) s ms).
Proof. exact C05_complete_lemma. Qed.
Print Assumptions C05_complete.

(** C05: without any restriction, every legal sequence of steps (complete or not) can be
    continued to a sequence whose position is reached by a returned move; the list is
    empty only if no legal step exists. *)
Theorem C05_legal_play_extends : forall pr st s mvs,
  WF (bgboard st) -> rolled (roll st) -> mover st s -> bg_valid_moves pr st = Ok mvs ->
  (forall ms, ms <> [] ->
     play (legal s) (fun _ _ => True) s [fst (roll st); snd (roll st)] (view (bgboard st)) ms ->
     exists ms' m b', In m mvs /\ get_next_state pr (bgboard st) m (player st) = Ok b'
       /\ pos_eq (view b') (effects (view (bgboard st)) s (ms ++ ms')))
  /\ (mvs = [] -> stuck s [fst (roll st); snd (roll st)] (view (bgboard st))).
Proof. exact C05_legal_play_extends_lemma. Qed.
Print Assumptions C05_legal_play_extends.

(** C05 (boundary): outside the clear-home condition a maximal legal play can be
    missing (the generator appends an illegal bear-off), and a player with no legal
    step at all can be offered a move; both in positions of proper games. *)
Theorem C05_exact_refuted : forall pr,
  (exists st mvs ms s, game pr st /\ mover st s /\ bg_valid_moves pr st = Ok mvs /\ ms <> []
     /\ turn s [fst (roll st); snd (roll st)] (view (bgboard st)) ms
     /\ forall m b', In m mvs -> get_next_state pr (bgboard st) m (player st) = Ok b' ->
          ~ pos_eq (view b') (effects (view (bgboard st)) s ms))
  /\ (exists st mvs s, game pr st /\ mover st s /\ bg_valid_moves pr st = Ok mvs /\ mvs <> []
     /\ stuck s [fst (roll st); snd (roll st)] (view (bgboard st))).
Proof. exact C05_exact_refuted_lemma. Qed.
Print Assumptions C05_exact_refuted.

Example C04_C05_hyps : WF (bgboard st_onestep) /\ rolled (roll st_onestep) /\ mover st_onestep P2
  /\ clear_home (view (bgboard st_onestep)) P2
  /\ turn P2 [fst (roll st_onestep); snd (roll st_onestep)] (view (bgboard st_onestep)) [Move 0 2; Move 2 8].
Proof.
  split; [apply wfb_spec; reflexivity|]. split; [apply (game_rolled Debug), game_onestep|].
  split; [reflexivity|]. split; [apply clearb_spec; reflexivity|].
  apply (play_step _ _ _ [6] 2 []); [apply legalb_spec; reflexivity|].
  apply (play_step _ _ _ [] 6 []); [apply legalb_spec; reflexivity|]. apply play_stop. intros d m [].
Qed.

(** C06: the returned moves lead to pairwise different boards (so they are pairwise
    different), have one or two steps, and are never the empty move. *)
Theorem C06_distinct : forall pr st s mvs,
  WF (bgboard st) -> rolled (roll st) -> mover st s -> bg_valid_moves pr st = Ok mvs ->
  NoDup (map (fun m => get_next_state pr (bgboard st) m (player st)) mvs)
  /\ NoDup mvs
  /\ (forall m, In m mvs -> exists b', get_next_state pr (bgboard st) m (player st) = Ok b')
  /\ (forall m, In m mvs -> (length m = 1 \/ length m = 2)%nat)
  /\ ~ In [] mvs.
Proof. exact C06_distinct_lemma. Qed.
Print Assumptions C06_distinct.

(** C08: a position of a proper game in which a one-step move is returned although a
    legal play of both dice exists and is returned as well (standard rules forbid the
    former). *)
Theorem C08_both_dice_not_forced : forall pr, exists st mvs s ms a,
  game pr st /\ mover st s /\ bg_valid_moves pr st = Ok mvs
  /\ turn s [fst (roll st); snd (roll st)] (view (bgboard st)) ms /\ length ms = 2%nat /\ In (map act_of ms) mvs
  /\ In [a] mvs.
Proof. exact C08_both_dice_not_forced_lemma. Qed.
Print Assumptions C08_both_dice_not_forced.

(** C08: a position of a proper game in which no legal play uses both dice, the higher
    die can be played, and yet a move that only the lower die permits is returned. *)
Theorem C08_higher_die_not_forced : forall pr, exists st mvs s lo hi m,
  game pr st /\ mover st s /\ bg_valid_moves pr st = Ok mvs
  /\ Permutation [hi; lo] [fst (roll st); snd (roll st)] /\ lo < hi
  /\ (forall ms, play (legal s) (fun _ _ => True) s [fst (roll st); snd (roll st)] (view (bgboard st)) ms ->
       (length ms <= 1)%nat)
  /\ (exists m', legal s hi (view (bgboard st)) m')
  /\ In [act_of m] mvs /\ legal s lo (view (bgboard st)) m /\ ~ legal s hi (view (bgboard st)) m.
Proof. exact C08_higher_die_not_forced_lemma. Qed.
Print Assumptions C08_higher_die_not_forced.

(** C09 (guarded): with no opposing checker in the mover's home board, the boards
    reachable by the returned moves of the mirrored position are exactly the mirror
    images. *)
Theorem C09_mirror : forall pr st s mvs mvs',
  WF (bgboard st) -> rolled (roll st) -> mover st s -> clear_home (view (bgboard st)) s ->
  bg_valid_moves pr st = Ok mvs ->
  bg_valid_moves pr (mkBg (mirror (bgboard st)) (roll st) (- player st) (second st) (bgid st)) = Ok mvs' ->
  forall b',
    (exists m, In m mvs /\ get_next_state pr (bgboard st) m (player st) = Ok b') <->
    (exists m', In m' mvs' /\ get_next_state pr (mirror (bgboard st)) m' (- player st) = Ok (mirror b')).
Proof. exact C09_mirror_lemma. Qed.
Print Assumptions C09_mirror.

(** C09 (violation): a position of a proper game whose mirror image does not offer the
    mirrored boards. *)
Theorem C09_mirror_refuted : forall pr, exists st mvs mvs' m b',
  game pr st /\ bg_valid_moves pr st = Ok mvs
  /\ bg_valid_moves pr (mkBg (mirror (bgboard st)) (roll st) (- player st) (second st) (bgid st)) = Ok mvs'
  /\ In m mvs /\ get_next_state pr (bgboard st) m (player st) = Ok b'
  /\ forall m', In m' mvs' -> get_next_state pr (mirror (bgboard st)) m' (- player st) <> Ok (mirror b').
Proof. exact C09_mirror_refuted_lemma. Qed.
Print Assumptions C09_mirror_refuted.

(** C10: on a well-formed board, a list of physically playable steps has exactly the
    composed rule-book effect ([effects] describes every count of both sides, so nothing
    else changes), stays well formed, and does not panic in either profile. *)
Theorem C10_next_state : forall pr b s ms, WF b -> seq_playable s (view b) ms ->
  exists b', get_next_state pr b (map act_of ms) (sign s) = Ok b' /\ WF b'
             /\ pos_eq (view b') (effects (view b) s ms).
Proof. exact C10_next_state_lemma. Qed.
Print Assumptions C10_next_state.

(** C10: the empty list changes nothing. *)
Theorem C10_empty : forall pr b p, get_next_state pr b [] p = Ok b.
Proof. exact C10_empty_lemma. Qed.
Print Assumptions C10_empty.

(** a hit, an entry with a hit, and a bear-off are playable in reachable positions *)
Example C10_hyps : WF (bgboard st_onestep)
  /\ seq_playable P2 (view (bgboard st_onestep)) [Move 0 1; Move 16 22]
  /\ bar (effects (view (bgboard st_onestep)) P2 [Move 0 1]) P1 = 1.
Proof.
  split; [apply wfb_spec; reflexivity|]. split; [|reflexivity].
  constructor; [vm_compute; repeat split; congruence|]. constructor; [vm_compute; repeat split; congruence|constructor].
Qed.

(** C11: [apply_move] with a double on the first play keeps player and dice and marks
    the second play (and draws nothing); otherwise it passes the turn, clears the mark and
    draws dice in 1..=6. *)
Theorem C11_apply_move : forall pr st s m r b', mover st s -> get_next_state pr (bgboard st) m (player st) = Ok b' ->
  (fst (roll st) = snd (roll st) -> second st = false ->
     bg_apply_move pr st m r = Ok (mkBg b' (roll st) (player st) true (bgid st), r))
  /\ (fst (roll st) <> snd (roll st) \/ second st = true ->
     exists st' r', bg_apply_move pr st m r = Ok (st', r') /\ bgboard st' = b'
       /\ mover st' (opp s) /\ second st' = false /\ rolled (roll st') /\ bgid st' = bgid st).
Proof. exact C11_apply_move_lemma. Qed.
Print Assumptions C11_apply_move.

(** C11: [skip_turn] always passes the turn, clears the mark, draws dice, keeps the board. *)
Theorem C11_skip_turn : forall pr st s r, mover st s ->
  exists st' r', bg_skip_turn pr st r = Ok (st', r') /\ bgboard st' = bgboard st /\ mover st' (opp s)
                 /\ second st' = false /\ rolled (roll st') /\ bgid st' = bgid st.
Proof. exact C11_skip_turn_lemma. Qed.
Print Assumptions C11_skip_turn.

(** C11: in every proper game the dice are rolled and the second-play mark implies a double. *)
Theorem C11_second_implies_double : forall pr st, game pr st -> rolled (roll st) /\ (second st = true -> fst (roll st) = snd (roll st)).
Proof. exact C11_second_implies_double_lemma. Qed.
Print Assumptions C11_second_implies_double.

(** C11: every pair of dice is a possible outcome of a roll (the random source is
    arbitrary), so the statements above range over all dice. *)
Theorem C11_all_dice : forall st d0 d1, die d0 -> die d1 -> exists r, roll (fst (bg_roll_die st r)) = (d0, d1).
Proof. exact C11_all_dice_lemma. Qed.
Print Assumptions C11_all_dice.

Example C11_hyps : game Debug st_legalstuck /\ second st_legalstuck = true /\ mover st_legalstuck P1.
Proof. split; [apply game_legalstuck|split; reflexivity]. Qed.

(** C12: first and second play of a double together are a maximal legal play of four
    equal dice (second play empty exactly when its move list is empty). *)
Theorem C12_double_sound : forall pr st s d mvs1 m1 r st1 r1 mvs2 m2,
  WF (bgboard st) -> die d -> roll st = (d, d) -> second st = false -> mover st s ->
  clear_home (view (bgboard st)) s ->
  bg_valid_moves pr st = Ok mvs1 -> In m1 mvs1 -> bg_apply_move pr st m1 r = Ok (st1, r1) ->
  bg_valid_moves pr st1 = Ok mvs2 -> In m2 mvs2 \/ (mvs2 = [] /\ m2 = []) ->
  player st1 = player st /\ roll st1 = (d, d) /\ second st1 = true /\
  exists ms, m1 ++ m2 = map act_of ms /\ turn s [d; d; d; d] (view (bgboard st)) ms.
Proof. exact C12_double_sound_lemma. Qed.
Print Assumptions C12_double_sound.

(** C12: conversely every non-empty maximal legal play of four equal dice is matched:
    some first play and second play reach exactly its position. *)
Theorem C12_double_complete : forall pr st s d mvs1 ms,
  WF (bgboard st) -> die d -> roll st = (d, d) -> second st = false -> mover st s ->
  clear_home (view (bgboard st)) s -> bg_valid_moves pr st = Ok mvs1 ->
  ms <> [] -> turn s [d; d; d; d] (view (bgboard st)) ms ->
  exists m1 st1 mvs2 m2 b', In m1 mvs1
    /\ (forall r, bg_apply_move pr st m1 r = Ok (st1, r)) /\ bg_valid_moves pr st1 = Ok mvs2
    /\ (In m2 mvs2 \/ (mvs2 = [] /\ m2 = []))
    /\ get_next_state pr (bgboard st1) m2 (player st1) = Ok b'
    /\ pos_eq (view b') (effects (view (bgboard st)) s ms).
Proof. exact C12_double_complete_lemma. Qed.
Print Assumptions C12_double_complete.

Example C12_hyps :
  let st := mkBg (mkBoard [0;0;0;0;-3;-5;-5;-2;0;0;0;0;0;0;0;0;5;0;5;5;0;0;0;0] 0 0 0 0) (2, 2) (-1) false 0 in
  WF (bgboard st) /\ clear_home (view (bgboard st)) P1 /\ mover st P1
  /\ (exists mvs, bg_valid_moves Debug st = Ok mvs /\ In [(7, 5); (7, 5)] mvs)
  /\ turn P1 [2; 2; 2; 2] (view (bgboard st)) [Move 7 5; Move 7 5; Move 6 4; Move 6 4].
Proof.
  cbv zeta. split; [apply wfb_spec; reflexivity|]. split; [apply clearb_spec; reflexivity|]. split; [reflexivity|]. split.
  - eexists. split; [vm_compute; reflexivity|]. cbn. tauto.
  - apply (play_step _ _ _ [] 2 [2; 2; 2]); [apply legalb_spec; reflexivity|].
    apply (play_step _ _ _ [] 2 [2; 2]); [apply legalb_spec; reflexivity|].
    apply (play_step _ _ _ [] 2 [2]); [apply legalb_spec; reflexivity|].
    apply (play_step _ _ _ [] 2 []); [apply legalb_spec; reflexivity|]. apply play_stop. intros d m [].
Qed.

(** C13: pip accounting of a returned move. *)
Theorem C13_pips : forall pr st s mvs m b',
  WF (bgboard st) -> rolled (roll st) -> mover st s -> bg_valid_moves pr st = Ok mvs -> In m mvs ->
  get_next_state pr (bgboard st) m (player st) = Ok b' ->
  let q := view (bgboard st) in let q' := view b' in
  Z.of_nat (length m) <= pips q s - pips q' s <= fst (roll st) + snd (roll st)
  /\ ((forall f, ~ In (f, -1) m) ->
      exists used rest, Permutation [fst (roll st); snd (roll st)] (used ++ rest) /\ length used = length m
        /\ pips q s - pips q' s = fold_right Z.add 0 used)
  /\ pips q (opp s) <= pips q' (opp s)
  /\ (bar q' (opp s) = bar q (opp s) -> pips q' (opp s) = pips q (opp s)).
Proof. exact C13_pips_lemma. Qed.
Print Assumptions C13_pips.

Example C13_hyps : WF (bgboard st_onestep) /\ rolled (roll st_onestep) /\ mover st_onestep P2
  /\ bg_valid_moves Debug st_onestep = Ok mvs_onestep /\ In [(0, 2); (2, 8)] mvs_onestep
  /\ exists b', get_next_state Debug (bgboard st_onestep) [(0, 2); (2, 8)] (player st_onestep) = Ok b'
       /\ pips (view (bgboard st_onestep)) P2 - pips (view b') P2 = 8.
Proof.
  split; [apply wfb_spec; reflexivity|]. split; [apply (game_rolled Debug), game_onestep|]. split; [reflexivity|].
  split; [apply moves_onestep|]. split; [now left|]. eexists. split; [vm_compute; reflexivity|vm_compute; reflexivity].
Qed.

(** C14: [check_win(p)] holds exactly when p has no checker left on the board or bar, and
    such a player has no valid move. *)
Theorem C14_check_win : forall pr st s, reach pr st ->
  (check_win (bgboard st) (sign s) = true <->
     (forall i, men (view (bgboard st)) s i = 0) /\ bar (view (bgboard st)) s = 0)
  /\ (check_win (bgboard st) (sign s) = true -> mover st s -> rolled (roll st) -> bg_valid_moves pr st = Ok []).
Proof. exact C14_check_win_lemma. Qed.
Print Assumptions C14_check_win.

(** C14: if moves are applied only while there is no winner, [check_winner] reports p
    exactly when p has no checker left, never both players do, and every further call
    keeps the winner. *)
Theorem C14_check_winner : forall pr st, reach_nw pr st ->
  (forall s, bg_check_winner st = Some (sign s) <->
     (forall i, men (view (bgboard st)) s i = 0) /\ bar (view (bgboard st)) s = 0)
  /\ (bg_check_winner st = None \/ bg_check_winner st = Some (-1) \/ bg_check_winner st = Some 1)
  /\ ~ (check_win (bgboard st) (-1) = true /\ check_win (bgboard st) 1 = true)
  /\ (forall p st', bg_check_winner st = Some p -> api_nw pr st st' -> bg_check_winner st' = Some p).
Proof. exact C14_check_winner_lemma. Qed.
Print Assumptions C14_check_winner.

(** test: the winner check is not vacuous *)
Example C14_win : exists st, WF (bgboard st) /\ bg_check_winner st = Some (-1) /\ bg_valid_moves Debug st = Ok [].
Proof.
  exists (mkBg (mkBoard [0;0;0;0;0;0;0;0;0;0;0;0;0;0;0;0;0;0;15;0;0;0;0;0] 0 0 15 0) (3, 1) (-1) false 0).
  split; [apply wfb_spec; reflexivity|split; reflexivity].
Qed.

(** C15: in every reachable position without a winner some dice give the player to move
    or, after a skip, the opponent at least one valid move. *)
Theorem C15_no_deadlock : forall pr st, reach pr st -> bg_check_winner st = None ->
  exists st' mvs m,
    ((exists r, st' = fst (bg_roll_die st r)) \/ (exists r r', bg_skip_turn pr st r = Ok (st', r')))
    /\ bg_valid_moves pr st' = Ok mvs /\ In m mvs.
Proof. exact C15_no_deadlock_lemma. Qed.
Print Assumptions C15_no_deadlock.

Example C15_hyps : forall pr, reach pr st_stuck /\ bg_check_winner st_stuck = None /\ bg_valid_moves pr st_stuck = Ok [].
Proof. intros pr. split; [apply game_reach, game_stuck|]. split; [reflexivity|apply moves_stuck]. Qed.
