(** * Prop_Show: what the program writes to the console (C69 to C72). *)
From Coq Require Import Permutation.
From Verif Require Import BgSpec BgTurn BgReach GameFacts ShowSpec VersusSpec VersusApi VersusStuck VersusApi2 McApi JsonApi ShowApi Witness.
Local Open Scope Z_scope.

(** C69.  The picture of a Backgammon position: 24 lines, with the turn, the roll, the bar and the
    collected checkers, and below a board on which each point shows its checkers. *)
Theorem C69_picture : forall pr s, drawable s -> bg_pretty pr s = Ok (join NL (bg_lines s)).
Proof. exact C69_picture_lemma. Qed.
Print Assumptions C69_picture.
(** C69.  Two positions with the same text have the same board and the same roll, and the same player
    to move as far as "player 1 or not". *)
Theorem C69_injective : forall pr pr' s s' t, drawable s -> drawable s' -> bg_pretty pr s = Ok t -> bg_pretty pr' s' = Ok t ->
  bgboard s = bgboard s' /\ roll s = roll s' /\ (player s = -1 <-> player s' = -1).
Proof. exact C69_injective_lemma. Qed.
Print Assumptions C69_injective.
(** C69.  Both hold for every position of a game; there, the player to move is also the same. *)
Theorem C69_game : forall pr s, bg_pos s -> bg_pretty pr s = Ok (join NL (bg_lines s)) /\
  forall pr' s' t, bg_pos s' -> bg_pretty pr s = Ok t -> bg_pretty pr' s' = Ok t -> bgboard s = bgboard s' /\ roll s = roll s' /\ player s = player s'.
Proof. exact C69_game_lemma. Qed.
Print Assumptions C69_game.
(** C69.  Tic-Tac-Toe: three lines of three numbers, which determine the board. *)
Theorem C69_ttt : forall s, length (tboard s) = 9%nat -> ttt_pretty s = Ok (join NL (ttt_lines s)).
Proof. exact C69_ttt_lemma. Qed.
Print Assumptions C69_ttt.
Theorem C69_ttt_injective : forall s s' t, typed_ttt s -> typed_ttt s' -> ttt_pretty s = Ok t -> ttt_pretty s' = Ok t -> tboard s = tboard s'.
Proof. exact C69_ttt_injective_lemma. Qed.
Print Assumptions C69_ttt_injective.
(** C69, beyond the game: a point holding -128 cannot be shown in a debug build and is shown empty in
    a release build. *)
Definition crowd (p : Z) : bg := mkBg (mkBoard (p :: repeat 0 23) 0 0 0 0) (1, 2) 1 false 0.
Theorem C69_overflow : bg_pretty Debug (crowd (-128)) = Panic POverflow /\ bg_pretty Release (crowd (-128)) = bg_pretty Release (crowd 0).
Proof. split; reflexivity. Qed.
Print Assumptions C69_overflow.
(** C69.  Not shown: which die of a double is still to be played ("second play"), the id, and in
    Tic-Tac-Toe the player. *)
Theorem C69_second_refuted : ~ (forall pr s s', bg_pos s -> bg_pos s' -> bg_pretty pr s = bg_pretty pr s' -> second s = second s').
Proof.
  intros H. set (s := fun b => mkBg initial_board (3, 3) 1 b 0). assert (HP : forall b, bg_pos (s b)).
  { intros b. split; [exact WF_initial|]. split; [exists P2; reflexivity|]. cbn. unfold rolled, die. cbn. lia. }
  specialize (H Debug (s true) (s false) (HP true) (HP false) eq_refl). discriminate H.
Qed.
Print Assumptions C69_second_refuted.
Theorem C69_ttt_player_refuted : ~ (forall s s', typed_ttt s -> typed_ttt s' -> ttt_pretty s = ttt_pretty s' -> tplayer s = tplayer s').
Proof.
  intros H. specialize (H ttt_new (mkTtt 1 (repeat 0 9) 0)). assert (HT : forall p, p = -1 \/ p = 1 -> typed_ttt (mkTtt p (repeat 0 9) 0)).
  { intros p Hp. unfold typed_ttt, is_i8, is_u64. cbn. repeat split; try lia. repeat constructor; lia. }
  specialize (H (HT (-1) (or_introl eq_refl)) (HT 1 (or_intror eq_refl)) eq_refl). discriminate H.
Qed.
Print Assumptions C69_ttt_player_refuted.
(** the picture of the first position *)
Definition dots (s : string) : text := map (fun c => if Ascii.eqb c "." then TAB else c) (txt s).
Example C69_initial : bg_pretty Debug (mkBg initial_board (3, 1) (-1) false 0) = Ok (join NL (map dots [
  "Current turn: Player 1.Roll: (3, 1)";
  "Player 1:";
  ".Broken Pieces: 0";
  ".Pieces Collected:0";
  "Player 2:";
  ".Broken Pieces: 0";
  ".Pieces Collected:0";
  "==============================================================================================================";
  "|.12.13.14.15.16.17.|.18.19.20.21.22.23.|";
  "|.x. . . .o. .|.o. . . . .x.|";
  "|.x. . . .o. .|.o. . . . .x.|";
  "|.x. . . .o. .|.o. . . . . .|";
  "|.x. . . . . .|.o. . . . . .|";
  "|.x. . . . . .|.o. . . . . .|";
  "|. . . . . . .|. . . . . . .|";
  "|. . . . . . .|. . . . . . .|";
  "|. . . . . . .|. . . . . . .|";
  "|.o. . . . . .|.x. . . . . .|";
  "|.o. . . . . .|.x. . . . . .|";
  "|.o. . . .x. .|.x. . . . . .|";
  "|.o. . . .x. .|.x. . . . .o.|";
  "|.o. . . .x. .|.x. . . . .o.|";
  "|.11.10.9.8.7.6.|.5.4.3.2.1.0.|";
  "=============================================================================================================="]%string)).
Proof. reflexivity. Qed.
Example C69_crowd : bg_pretty Debug (crowd (-128 + 1)) <> bg_pretty Debug (crowd 127) /\ drawable (crowd 127).
Proof. split; [discriminate|]. unfold drawable, typed_board, is_u8. cbn. repeat split; try lia; repeat constructor; unfold is_i8; lia. Qed.
Example C69_ttt_text : ttt_pretty (mkTtt 1 [-1; 0; 1; 0; -1; 0; 0; 0; 1] 0) = Ok (join NL (map dots ["-1|0|1"; "0|-1|0"; "0|0|1"]%string)).
Proof. reflexivity. Qed.

(** C70.  Printing the tree below a node of a finished search: each node at most [depth] steps below
    appears exactly once, with its own numbers, below the line of its parent. *)
Theorem C70_tree : forall G ln (s : St G) st c i depth, tree s st -> (i < length st)%nat -> exists ls, pretty_print ln st c i depth = Ok ls /\ shows ln st c i depth ls.
Proof. exact C70_tree_lemma. Qed.
Print Assumptions C70_tree.
(** C70.  The same for the trees of a search guided by a network. *)
Theorem C70_forest : forall G ln (ss : list (St G)) st c i depth, forest ss st -> (i < length st)%nat -> exists ls, pretty_print ln st c i depth = Ok ls /\ shows ln st c i depth ls.
Proof. exact C70_forest_lemma. Qed.
Print Assumptions C70_forest.
(** C70.  With enough depth every node of the tree is shown. *)
Theorem C70_complete : forall G ln (s : St G) st c depth, tree s st -> (length st <= S depth)%nat -> exists ls, pretty_print ln st c 0 depth = Ok ls /\ Permutation (map l_idx ls) (seq 0 (length st)).
Proof. exact C70_complete_lemma. Qed.
Print Assumptions C70_complete.

(** ten iterations on the empty Tic-Tac-Toe board: the root, nine nodes below it and one below these *)
Definition small_run (k : nat) : res (store (ttt_game Debug) * rng) :=
  st0 <- mcts_init (G := ttt_game Debug) ttt_new ;; mcts_loop (fun x => x) k (-1) (cfg0 10 1) (st0, rng0).
Lemma small_tree k st r' : small_run k = Ok (st, r') -> tree (G := ttt_game Debug) ttt_new st.
Proof. unfold small_run. destruct (mcts_init _) as [st0|] eqn:E0; [|discriminate]. cbn [bind]. intros E. exact (C26_tree_lemma _ _ _ _ _ _ _ _ _ _ E0 E). Qed.
Definition small_lines (depth : nat) : res (list (nat * nat)) :=
  x <- small_run 10 ;; ls <- pretty_print (fun x => x) (fst x) f1 0 depth ;; Ok (map (fun l => (l_depth l, l_idx l)) ls).
Example C70_run : (exists st r', small_run 10 = Ok (st, r') /\ tree (G := ttt_game Debug) ttt_new st)
  /\ small_lines 0 = Ok [(0, 0)]%nat /\ small_lines 1 = Ok ((0, 0) :: map (fun i => (1, i)) (seq 1 9))%nat
  /\ (exists ls, small_lines 2 = Ok ls /\ length ls = 11%nat /\ In (2, 10)%nat ls).
Proof.
  assert (HR : match small_run 10 with Ok _ => true | _ => false end = true) by (vm_compute; reflexivity).
  split; [|split; [vm_compute; reflexivity|split; [vm_compute; reflexivity|]]].
  - destruct (small_run 10) as [[st r']|] eqn:E; [|discriminate HR]. exists st, r'. split; [reflexivity|exact (small_tree 10 st r' E)].
  - eexists. split; [vm_compute; reflexivity|]. split; [reflexivity|]. cbn. tauto.
Qed.

(** C71.  The text of a match result: seven lines with the numbers of won, lost and drawn games. *)
Theorem C71_summary : forall G I tsum dirichlet unif tpow cfg hash order p1 p2, setting G I tsum dirichlet unif tpow cfg hash order p1 p2 ->
  forall ln nanoid fuel r res r', play ln tsum dirichlet unif tpow nanoid cfg hash order p1 p2 fuel r = Ok (res, r') -> forall showf,
  exists starts ws, report (plays ln tsum dirichlet unif tpow cfg p1 p2) tpow (pl_type p1) (pl_type p2) res starts ws
    /\ summary showf res = concat (map (fun l => l ++ [NL])
         [txt "Player 1: " ++ agent_name (pl_type p1); txt "Player 2: " ++ agent_name (pl_type p2);
          txt "Wins Player 1: " ++ print_int (times (-1) ws); txt "Wins Player 2: " ++ print_int (times 1 ws);
          txt "Draws: " ++ print_int (400 - times (-1) ws - times 1 ws); txt "Number of Games: 400";
          txt "Winrate: " ++ showf (percent (ddiv (f64_of_Z (times (-1) ws)) (f64_of_Z 400))) ++ txt "%"]).
Proof. exact C71_summary_lemma. Qed.
Print Assumptions C71_summary.
(** C71.  The winning rate as it is shown lies between 0 and 100, grows with the number of games won,
    and is at most 2^-45 away from the percentage; it is exactly the number nearest to the percentage
    unless the number of games won is one of the 35 in [inexact]. *)
Theorem C71_rate : forall w, 0 <= w <= 400 -> let x := percent (ddiv (f64_of_Z w) (f64_of_Z 400)) in
  near4 45 x w /\ SFleb (f64_of_Z 0) x = true /\ SFleb x (f64_of_Z 100) = true
  /\ (x = ddiv (f64_of_Z w) (f64_of_Z 4) <-> ~ In w inexact)
  /\ (w < 400 -> SFltb x (percent (ddiv (f64_of_Z (w + 1)) (f64_of_Z 400))) = true).
Proof. exact C71_rate_lemma. Qed.
Print Assumptions C71_rate.
(** C71.  So the exact rate is not always shown: 7 of 400 are 1.75 percent, but the number shown is
    another one. *)
Theorem C71_exact_refuted : ~ (forall w, 0 <= w <= 400 -> percent (ddiv (f64_of_Z w) (f64_of_Z 400)) = ddiv (f64_of_Z w) (f64_of_Z 4)).
Proof. intros H. assert (Hw : 0 <= 7 <= 400) by lia. destruct (C71_rate 7 Hw) as (_ & _ & _ & Hi & _). apply (proj1 Hi (H 7 Hw)). left. reflexivity. Qed.
Print Assumptions C71_exact_refuted.

(** C72.  The text of [replay]: after each turn the picture of the first position is shown again. *)
Theorem C72_text : forall T rd pretty dbg wait f (g : sgame T) p, load_game rd f = Some g -> pretty (sg_init g) = Ok p ->
  replay rd pretty dbg wait f = Ok (unlines (replay_head g ++ [p] ++ concat (map (replay_turn dbg wait p) (sg_turns g)))).
Proof. exact C72_text_lemma. Qed.
Print Assumptions C72_text.
Theorem C72_fails : forall T rd pretty dbg wait f, (load_game (T := T) rd f = None -> replay rd pretty dbg wait f = Panic PExplicit)
  /\ (forall g e, load_game rd f = Some g -> pretty (sg_init g) = Panic e -> replay rd pretty dbg wait f = Panic e).
Proof. exact C72_fails_lemma. Qed.
Print Assumptions C72_fails.
(** C72.  Replaying a game of a match from the file it was saved to shows the first position and
    nothing of the game but its winner. *)
Theorem C72_ttt_match : forall pr tsum dirichlet unif tpow cfg hash order p1 p2, setting (ttt_game pr) ttt_pos tsum dirichlet unif tpow cfg hash order p1 p2 ->
  forall ln nanoid fuel r res r', play ln tsum dirichlet unif tpow nanoid cfg hash order p1 p2 fuel r = Ok (res, r') ->
  forall name dbg wait g, In g (r_games res) ->
  replay rd_ttt ttt_pretty dbg wait (print 0 (wr_game wr_ttt (saved name g)))
  = Ok (unlines (replay_head (saved name g) ++ [txt "0|0|0"; txt "0|0|0"; txt "0|0|0"])).
Proof. exact C72_ttt_match_lemma. Qed.
Print Assumptions C72_ttt_match.
Theorem C72_bg_match : forall pr tsum dirichlet unif tpow cfg hash order p1 p2, setting (bg_game pr) bg_pos tsum dirichlet unif tpow cfg hash order p1 p2 ->
  forall ln nanoid fuel r res r', play ln tsum dirichlet unif tpow nanoid cfg hash order p1 p2 fuel r = Ok (res, r') ->
  forall name dbg wait g, In g (r_games res) ->
  replay rd_bg (bg_pretty pr) dbg wait (print 0 (wr_game wr_bg (saved name g))) = Ok (unlines (replay_head (saved name g) ++ bg_lines (vg_init g)))
  /\ bgboard (vg_init g) = initial_board.
Proof. exact C72_bg_match_lemma. Qed.
Print Assumptions C72_bg_match.
(** a game in which the middle field was taken: the picture after the move is still empty *)
Example C72_stale : replay rd_ttt ttt_pretty (fun _ => txt "..") false (print 0 (wr_game wr_ttt
    (mkSg (txt "abc") ARandom AMcts [mkSt None [mkTtt 1 [0; 0; 0; 0; -1; 0; 0; 0; 0] 0] ARandom] AMcts ttt_new)))
  = Ok (unlines (map txt ["Game ID: abc"; "Player 1: Random, Player 2: Mcts"; "Game winner: Mcts"; "Initial State:"; "0|0|0"; "0|0|0"; "0|0|0";
      "Player: Random"; "Roll: None"; "Action: .."; "State after action has been played:"; "0|0|0"; "0|0|0"; "0|0|0"]%string)).
Proof. vm_compute. reflexivity. Qed.
(** the matches of the theorems exist *)
Example C72_match : forall pr r, exists res r', play (G := ttt_game pr) (fun x => x) tsum0 dir0 unif0 pow1 count_id (cfg0 1 1) hash0 order2 random_player random_player 400 r = Ok (res, r')
  /\ length (r_games res) = 400%nat /\ exists starts ws, report (plays (fun x => x) tsum0 dir0 unif0 pow1 (cfg0 1 1) random_player random_player) pow1 ARandom ARandom res starts ws.
Proof.
  intros pr r. destruct (count_match pr r) as (res & r' & E & _). exists res, r'. split; [exact E|].
  destruct (C39_accounting_lemma _ _ _ _ _ _ _ _ _ _ _ (random_setting _ _ (ttt_match pr)) _ _ _ _ _ _ E) as (starts & ws & HR & _).
  split; [exact (proj1 (proj2 (proj2 (proj2 (proj2 (proj2 (C39_totals_lemma _ _ _ _ _ _ _ _ HR)))))))|exists starts, ws; exact HR].
Qed.
