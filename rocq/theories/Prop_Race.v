(** * Prop_Race: C80 — games in which the players have passed each other end, others need not; deadlocks do not occur. *)
From Verif Require Import Base BaseFacts BgModel BgSpec BgTurn BgReach GameModel GameFacts McModel RaceSpec RaceApi.
Local Open Scope Z_scope.

(** C80.  Once the players have passed each other, the player to move has a move until the game is over. *)
Theorem C80_move : forall pr st mvs, bg_pos st -> passed (view (bgboard st)) -> bg_check_winner st = None -> bg_valid_moves pr st = Ok mvs -> mvs <> [].
Proof. exact C80_move_lemma. Qed.
Print Assumptions C80_move.
(** C80.  From there on, whatever is played and rolled, the players stay apart and every move brings
    the game nearer to its end: there are at most as many moves as there are pips left ... *)
Theorem C80_ends : forall pr n st st', bg_pos st -> passed (view (bgboard st)) -> course pr n st st' ->
  bg_pos st' /\ passed (view (bgboard st')) /\ Z.of_nat n + distance st' <= distance st /\ 0 <= distance st'.
Proof. exact C80_ends_lemma. Qed.
Print Assumptions C80_ends.
(** ... and the game can be played until somebody has won. *)
Theorem C80_finish : forall pr st, bg_pos st -> passed (view (bgboard st)) -> exists n st', course pr n st st' /\ bg_check_winner st' <> None /\ Z.of_nat n <= distance st.
Proof. exact C80_finish_lemma. Qed.
Print Assumptions C80_finish.
(** C80.  So the plain search, which panics in other positions (C28), finds a valid move in every race. *)
Theorem C80_search : forall pr ln s pl cfg r, bg_pos s -> passed (view (bgboard s)) -> (pl = -1 \/ pl = 1) -> bg_check_winner s = None -> (0 < iterations cfg)%nat ->
  exists m r' vm, mct_search (G := bg_game pr) ln s pl cfg r = Ok (m, r') /\ bg_valid_moves pr s = Ok vm /\ In m vm.
Proof. exact C80_search_lemma. Qed.
Print Assumptions C80_search.
(** C80.  If both players are on the bar against closed boards, turns are skipped for ever ... *)
Theorem C80_deadlock : forall pr n st, bg_pos st -> deadlock (view (bgboard st)) ->
  bg_check_winner st = None /\ bg_valid_moves pr st = Ok [] /\ exists st', course pr n st st' /\ bgboard st' = bgboard st.
Proof. exact C80_deadlock_lemma. Qed.
Print Assumptions C80_deadlock.
(** ... but no sequence of calls leads from the start to such a position. *)
Theorem C80_no_deadlock : forall pr st, reach pr st -> ~ deadlock (view (bgboard st)).
Proof. exact C80_no_deadlock_lemma. Qed.
Print Assumptions C80_no_deadlock.
(** C80.  Before the players have passed each other there is no bound: games of any length can be
    played from the opening, turns being skipped only if there is no move ... *)
Theorem C80_endless : forall pr, exists r, forall n, exists st', course pr n (fst (bg_roll_die bg_new r)) st' /\ bg_check_winner st' = None.
Proof. exact C80_endless_lemma. Qed.
Print Assumptions C80_endless.
(** ... and there is a position in such a game from which, with the dice against them, the players have
    but one move each time, for any number of moves (one checker each, 5-5 for ever). *)
Theorem C80_forced : forall pr, exists st, (exists r k, course pr k (fst (bg_roll_die bg_new r)) st) /\
  forall n, exists l, length l = S n /\ nth 0 l bg_new = st /\
    forall i, (i < n)%nat -> exists m r r', bg_check_winner (nth i l bg_new) = None /\ bg_valid_moves pr (nth i l bg_new) = Ok [m] /\ bg_apply_move pr (nth i l bg_new) m r = Ok (nth (S i) l bg_new, r').
Proof. exact C80_forced_lemma. Qed.
Print Assumptions C80_forced.

(** Both hypotheses can be met. *)
Definition race_st : bg := mkBg (mkBoard [0; 0; 0; -1; 0; -1; 0; 0; 0; 0; 0; 0; 0; 0; 0; 0; 0; 0; 0; 0; 1; 0; 0; 0] 0 0 13 14) (4, 2) (-1) false 0.
Example C80_race : bg_pos race_st /\ passed (view (bgboard race_st)) /\ distance race_st = 14 /\ bg_check_winner race_st = None.
Proof.
  split; [split; [repeat split; vm_compute; congruence|split; [exists P1; reflexivity|repeat split; vm_compute; congruence]]|]. split; [|split; reflexivity].
  split; [reflexivity|]. split; [reflexivity|]. intros i j Hi Hj Hm Hn.
  destruct (Z_lt_le_dec i 6) as [A|A].
  - destruct (Z_lt_le_dec 5 j) as [B|B]; [lia|]. exfalso. unfold on_board in *. assert (C : j = 0 \/ j = 1 \/ j = 2 \/ j = 3 \/ j = 4 \/ j = 5) by lia.
    destruct C as [->|[->|[->|[->|[->| ->]]]]]; vm_compute in Hn; discriminate.
  - exfalso. revert Hm. enough (E : men (view (bgboard race_st)) P1 i = 0) by (rewrite E; lia). unfold on_board in Hi.
    assert (F : forallb (fun k => men (view (bgboard race_st)) P1 k =? 0) (range 6 24) = true) by (vm_compute; reflexivity).
    rewrite forallb_forall in F. apply Z.eqb_eq, F, In_range. lia.
Qed.
Example C80_race_run : exists st r, bg_apply_move Debug race_st [(5, 3); (3, -1)] (mkRng (fun _ => 0%N) 0) = Ok (st, r) /\ In [(5, 3); (3, -1)] (match bg_valid_moves Debug race_st with Ok l => l | _ => [] end) /\ distance st = 8.
Proof. eexists _, _. split; [vm_compute; reflexivity|]. split; [vm_compute; tauto|reflexivity]. Qed.
Definition dead_st : bg := mkBg (mkBoard [-2; -2; -2; -2; -2; -2; 0; 0; 0; 0; 0; 0; 0; 0; 0; 0; 0; 0; 2; 2; 2; 2; 2; 2] 3 3 0 0) (4, 2) (-1) false 0.
Example C80_dead : bg_pos dead_st /\ deadlock (view (bgboard dead_st)).
Proof.
  split; [split; [repeat split; vm_compute; congruence|split; [exists P1; reflexivity|repeat split; vm_compute; congruence]]|].
  intros s. split; [destruct s; vm_compute; reflexivity|]. intros d Hd. unfold die in Hd. assert (C : d = 1 \/ d = 2 \/ d = 3 \/ d = 4 \/ d = 5 \/ d = 6) by lia.
  destruct s, C as [->|[->|[->|[->|[->| ->]]]]]; vm_compute; discriminate.
Qed.
