(** * RepoTests: the project's own unit tests, run on the model.
    tests/backgammon_test.rs (BT), encoding_test.rs (ET), tictactoe_test.rs (TE), mcts_test.rs (ME).
    Every assertion of the test files is restated for the model's definitions and computed, for both
    build profiles: the model and the code agree on all inputs the project has expectations for. *)
From Verif Require Import Base F32 Tensor BgModel EncModel TttModel GameModel McModel AlphaModel Witness.

(** [let mut b = [0; 24]; b[i] = v; ...] *)
Definition pieces (l : list (Z * Z)) : list Z := fold_left (fun b iv => set_nth b (Z.to_nat (fst iv)) (snd iv)) l (repeat 0 24).
Definition bd (l : list (Z * Z)) (h1 h2 c1 c2 : Z) : board := mkBoard (pieces l) h1 h2 c1 c2.
(** [ActionNode]s compared with [==] (BL:29-33) *)
Definition leaf (a : action) : anode := ANode a [].
Definition chain (a b : action) : anode := ANode a [leaf b].
Definition value (n : anode) : action := let 'ANode a _ := n in a.
Definition first_value (r : res (list anode)) : option action := match r with Ok (n :: _) => Some (value n) | _ => None end.
Definition holds {A} (r : res A) (P : A -> Prop) : Prop := match r with Ok a => P a | Panic _ => False end.

(** ** BT:7-24 *)
Example initial_state : bgboard bg_new = initial_board /\ bgboard (init_with_fields initial_board (-1) false) = initial_board
  /\ initial_board = mkBoard [2; 0; 0; 0; 0; -5; 0; -3; 0; 0; 0; 5; -5; 0; 0; 0; 3; 0; 5; 0; 0; 0; 0; -2] 0 0 0 0.
Proof. repeat split. Qed.

(** ** BT:26-250: get_next_state *)
Example next_not_change_state_when_actions_empty : forall pr, get_next_state pr initial_board [] (1)
  = Ok (mkBoard [2; 0; 0; 0; 0; -5; 0; -3; 0; 0; 0; 5; -5; 0; 0; 0; 3; 0; 5; 0; 0; 0; 0; -2] 0 0 0 0).
Proof. intros [|]; vm_compute; reflexivity. Qed.
Example next_change_state_on_normal_move1 : forall pr, get_next_state pr initial_board [(23, 21); (23, 20)] (-1)
  = Ok (mkBoard [2; 0; 0; 0; 0; -5; 0; -3; 0; 0; 0; 5; -5; 0; 0; 0; 3; 0; 5; 0; -1; -1; 0; 0] 0 0 0 0).
Proof. intros [|]; vm_compute; reflexivity. Qed.
Example next_change_state_on_normal_move2 : forall pr, get_next_state pr initial_board [(0, 3); (0, 3)] (1)
  = Ok (mkBoard [0; 0; 0; 2; 0; -5; 0; -3; 0; 0; 0; 5; -5; 0; 0; 0; 3; 0; 5; 0; 0; 0; 0; -2] 0 0 0 0).
Proof. intros [|]; vm_compute; reflexivity. Qed.
Example next_change_state_when_player1_hit : forall pr, get_next_state pr (mkBoard [0; 0; 0; 0; 0; 0; 0; 0; 0; 0; 0; 0; 0; 0; 0; 0; 0; 0; -5; 0; 0; 1; 0; 1] 0 0 0 0) [(18, 21); (18, 23)] (-1)
  = Ok (mkBoard [0; 0; 0; 0; 0; 0; 0; 0; 0; 0; 0; 0; 0; 0; 0; 0; 0; 0; -3; 0; 0; -1; 0; -1] 0 2 0 0).
Proof. intros [|]; vm_compute; reflexivity. Qed.
Example next_change_state_when_player2_hit : forall pr, get_next_state pr (mkBoard [0; 0; 0; 0; 0; 5; 0; 0; -1; 0; -1; 0; 0; 0; 0; 0; 0; 0; 0; 0; 0; 0; 0; 0] 0 0 0 0) [(5, 8); (5, 10)] (1)
  = Ok (mkBoard [0; 0; 0; 0; 0; 3; 0; 0; 1; 0; 1; 0; 0; 0; 0; 0; 0; 0; 0; 0; 0; 0; 0; 0] 2 0 0 0).
Proof. intros [|]; vm_compute; reflexivity. Qed.
Example next_change_state_when_collecting_player1 : forall pr, get_next_state pr (mkBoard [0; 0; 0; 0; 0; 0; 0; 0; 0; 0; 0; 0; 0; 0; 0; 0; 0; 0; 0; 0; 0; 0; 0; -2] 0 0 0 0) [(23, -1); (23, -1)] (-1)
  = Ok (mkBoard [0; 0; 0; 0; 0; 0; 0; 0; 0; 0; 0; 0; 0; 0; 0; 0; 0; 0; 0; 0; 0; 0; 0; 0] 0 0 2 0).
Proof. intros [|]; vm_compute; reflexivity. Qed.
Example next_change_state_when_collecting_player2 : forall pr, get_next_state pr (mkBoard [0; 0; 0; 0; 0; 5; 0; 0; 0; 0; 0; 0; 0; 0; 0; 0; 0; 0; 0; 0; 0; 0; 0; 0] 0 0 0 0) [(5, -1); (5, -1)] (1)
  = Ok (mkBoard [0; 0; 0; 0; 0; 3; 0; 0; 0; 0; 0; 0; 0; 0; 0; 0; 0; 0; 0; 0; 0; 0; 0; 0] 0 0 0 2).
Proof. intros [|]; vm_compute; reflexivity. Qed.
Example next_change_state_playing_from_bar_player1 : forall pr, get_next_state pr (mkBoard [0; 0; 0; 0; 0; 0; 0; 0; 0; 0; 0; 0; 0; 0; 0; 0; 0; 0; 0; 0; 0; 0; 0; 0] 2 0 0 0) [(-1, 23); (-1, 20)] (-1)
  = Ok (mkBoard [0; 0; 0; 0; 0; 0; 0; 0; 0; 0; 0; 0; 0; 0; 0; 0; 0; 0; 0; 0; -1; 0; 0; -1] 0 0 0 0).
Proof. intros [|]; vm_compute; reflexivity. Qed.
Example next_change_state_playing_from_bar_player2 : forall pr, get_next_state pr (mkBoard [0; 0; 0; 0; 0; 0; 0; 0; 0; 0; 0; 0; 0; 0; 0; 0; 0; 0; 0; 0; 0; 0; 0; 0] 0 2 0 0) [(-1, 0); (-1, 3)] (1)
  = Ok (mkBoard [1; 0; 0; 1; 0; 0; 0; 0; 0; 0; 0; 0; 0; 0; 0; 0; 0; 0; 0; 0; 0; 0; 0; 0] 0 0 0 0).
Proof. intros [|]; vm_compute; reflexivity. Qed.
Example next_change_state_playing_from_bar_and_hitting_player1 : forall pr, get_next_state pr (mkBoard [0; 0; 0; 0; 0; 0; 0; 0; 0; 0; 0; 0; 0; 0; 0; 0; 0; 0; 0; 0; 1; 0; 0; 1] 2 0 0 0) [(-1, 23); (-1, 20)] (-1)
  = Ok (mkBoard [0; 0; 0; 0; 0; 0; 0; 0; 0; 0; 0; 0; 0; 0; 0; 0; 0; 0; 0; 0; -1; 0; 0; -1] 0 2 0 0).
Proof. intros [|]; vm_compute; reflexivity. Qed.
Example next_change_state_playing_from_bar_and_hitting_player2 : forall pr, get_next_state pr (mkBoard [-1; 0; 0; -1; 0; 0; 0; 0; 0; 0; 0; 0; 0; 0; 0; 0; 0; 0; 0; 0; 0; 0; 0; 0] 0 2 0 0) [(-1, 0); (-1, 3)] (1)
  = Ok (mkBoard [1; 0; 0; 1; 0; 0; 0; 0; 0; 0; 0; 0; 0; 0; 0; 0; 0; 0; 0; 0; 0; 0; 0; 0] 2 0 0 0).
Proof. intros [|]; vm_compute; reflexivity. Qed.
Example next_change_state_playing_from_bar_and_hitting_player2_2 : forall pr, get_next_state pr (mkBoard [-1; -1; -1; 1; -1; -3; -3; 0; 0; 1; 0; 0; -1; 0; -1; -1; 4; 1; 5; -1; -1; 0; 0; 1] 0 2 0 0) [(-1, 3); (-1, 4)] (1)
  = Ok (mkBoard [-1; -1; -1; 2; 1; -3; -3; 0; 0; 1; 0; 0; -1; 0; -1; -1; 4; 1; 5; -1; -1; 0; 0; 1] 1 0 0 0).
Proof. intros [|]; vm_compute; reflexivity. Qed.

(** ** BT:252-506: get_normal_moves *)
Example normal_single_p1 : forall pr, first_value (get_normal_moves pr [1] (bd [(20, -1)] 0 0 0 0) (-1)) = Some (20, 19).
Proof. intros [|]; vm_compute; auto 20. Qed.
Example normal_none_p1 : forall pr, get_normal_moves pr [1] (bd [(20, -1); (19, 2)] 0 0 0 0) (-1) = Ok [].
Proof. intros [|]; vm_compute; auto 20. Qed.
Example normal_multiple_p1 : forall pr, holds (get_normal_moves pr [1; 1] (bd [(20, -1)] 0 0 0 0) (-1)) (fun ms => match ms with ANode a (c :: _) :: _ => a = (20, 19) /\ value c = (19, 18) | _ => False end).
Proof. intros [|]; vm_compute; auto 20. Qed.
Example normal_possibilities_p1 : forall pr, holds (get_normal_moves pr [2; 1] (bd [(20, -1)] 0 0 0 0) (-1)) (fun ms => length ms = 2%nat /\ In (chain (20, 19) (19, 17)) ms /\ In (chain (20, 18) (18, 17)) ms).
Proof. intros [|]; vm_compute; auto 20. Qed.
Example normal_collect_exact_p1 : forall pr, holds (get_normal_moves pr [1] (bd [(0, -1)] 0 0 0 0) (-1)) (fun ms => nth_error ms 0 = Some (leaf (0, -1))).
Proof. intros [|]; vm_compute; auto 20. Qed.
Example normal_collect_higher_p1 : forall pr, holds (get_normal_moves pr [6] (bd [(0, -1)] 0 0 0 0) (-1)) (fun ms => nth_error ms 0 = Some (leaf (0, -1))).
Proof. intros [|]; vm_compute; auto 20. Qed.
Example normal_collect_exact2_p1 : forall pr, holds (get_normal_moves pr [6; 1] (bd [(0, -1); (5, -1)] 0 0 0 0) (-1)) (fun ms => In (chain (0, -1) (5, -1)) ms).
Proof. intros [|]; vm_compute; auto 20. Qed.
Example normal_collect_higher2_p1 : forall pr, holds (get_normal_moves pr [6; 1] (bd [(0, -1); (4, -1)] 0 0 0 0) (-1)) (fun ms => In (chain (4, -1) (0, -1)) ms).
Proof. intros [|]; vm_compute; auto 20. Qed.
Example normal_single_p2 : forall pr, first_value (get_normal_moves pr [1] (bd [(10, 1)] 0 0 0 0) (1)) = Some (10, 11).
Proof. intros [|]; vm_compute; auto 20. Qed.
Example normal_none_p2 : forall pr, get_normal_moves pr [1] (bd [(10, 1); (11, -2)] 0 0 0 0) (1) = Ok [].
Proof. intros [|]; vm_compute; auto 20. Qed.
Example normal_multiple_p2 : forall pr, holds (get_normal_moves pr [1; 1] (bd [(10, 1)] 0 0 0 0) (1)) (fun ms => match ms with ANode a (c :: _) :: _ => a = (10, 11) /\ value c = (11, 12) | _ => False end).
Proof. intros [|]; vm_compute; auto 20. Qed.
Example normal_possibilities_p2 : forall pr, holds (get_normal_moves pr [2; 1] (bd [(10, 1)] 0 0 0 0) (1)) (fun ms => length ms = 2%nat /\ In (chain (10, 11) (11, 13)) ms /\ In (chain (10, 12) (12, 13)) ms).
Proof. intros [|]; vm_compute; auto 20. Qed.
Example normal_collect_exact_p2 : forall pr, holds (get_normal_moves pr [1] (bd [(23, 1)] 0 0 0 0) (1)) (fun ms => nth_error ms 0 = Some (leaf (23, -1))).
Proof. intros [|]; vm_compute; auto 20. Qed.
Example normal_collect_higher_p2 : forall pr, holds (get_normal_moves pr [6] (bd [(23, 1)] 0 0 0 0) (1)) (fun ms => nth_error ms 0 = Some (leaf (23, -1))).
Proof. intros [|]; vm_compute; auto 20. Qed.
Example normal_collect_exact2_p2 : forall pr, holds (get_normal_moves pr [6; 1] (bd [(23, 1); (18, 1)] 0 0 0 0) (1)) (fun ms => In (chain (23, -1) (18, -1)) ms).
Proof. intros [|]; vm_compute; auto 20. Qed.
Example normal_collect_higher2_p2 : forall pr, holds (get_normal_moves pr [6; 1] (bd [(23, 1); (20, 1)] 0 0 0 0) (1)) (fun ms => In (chain (20, -1) (23, -1)) ms).
Proof. intros [|]; vm_compute; auto 20. Qed.

(** ** BT:508-580: is_collectible, check_win *)
Example collectible_not : is_collectible initial_board (-1) = false /\ is_collectible initial_board 1 = false.
Proof. vm_compute. auto. Qed.
Example collectible_yes : let b := bd [(0, -1); (23, 1)] 0 0 0 0 in is_collectible b (-1) = true /\ is_collectible b 1 = true.
Proof. vm_compute. auto. Qed.
Example collectible_bar : let b := bd [(0, -1); (23, 1)] 1 1 0 0 in is_collectible b (-1) = false /\ is_collectible b 1 = false.
Proof. vm_compute. auto. Qed.
Example win_nobody : check_win initial_board (-1) = false /\ check_win initial_board 1 = false.
Proof. vm_compute. auto. Qed.
Example win_yes : let b := bd [] 0 0 15 15 in check_win b (-1) = true /\ check_win b 1 = true.
Proof. vm_compute. auto. Qed.

(** ** BT:581-676: extract_sequences_node, extract_sequences_list *)
Example node_single : forall pr, holds (get_normal_moves pr [1] (bd [(10, 1)] 0 0 0 0) 1) (fun ms => option_map extract_sequences_node (nth_error ms 0) = Some [[(10, 11)]]).
Proof. intros [|]; vm_compute; auto 20. Qed.
Example node_multiple : forall pr, holds (get_normal_moves pr [1; 1] (bd [(20, -1)] 0 0 0 0) (-1)) (fun ms => option_map extract_sequences_node (nth_error ms 0) = Some [[(20, 19); (19, 18)]]).
Proof. intros [|]; vm_compute; auto 20. Qed.
Example node_possibilities : forall pr, holds (get_normal_moves pr [1; 1] (bd [(20, -1); (23, -1)] 0 0 0 0) (-1)) (fun ms => option_map extract_sequences_node (nth_error ms 0) = Some [[(20, 19); (19, 18)]; [(20, 19); (23, 22)]]).
Proof. intros [|]; vm_compute; auto 20. Qed.
Example list_single : forall pr, holds (get_normal_moves pr [1] (bd [(10, 1)] 0 0 0 0) 1) (fun ms => extract_sequences_list ms = [[(10, 11)]]).
Proof. intros [|]; vm_compute; auto 20. Qed.
Example list_multiple : forall pr, holds (get_normal_moves pr [1; 1] (bd [(20, -1)] 0 0 0 0) (-1)) (fun ms => extract_sequences_list ms = [[(20, 19); (19, 18)]]).
Proof. intros [|]; vm_compute; auto 20. Qed.
Example list_possibilities : forall pr, holds (get_normal_moves pr [2; 1] (bd [(20, -1)] 0 0 0 0) (-1)) (fun ms => extract_sequences_list ms = [[(20, 19); (19, 17)]; [(20, 18); (18, 17)]]).
Proof. intros [|]; vm_compute; auto 20. Qed.
Example list_nodes : forall pr, holds (get_normal_moves pr [2; 1] (bd [(20, -1); (19, 2); (16, -1)] 0 0 0 0) (-1)) (fun ms => (1 < length ms)%nat /\ extract_sequences_list ms =
  [[(16, 15); (15, 13)]; [(16, 15); (20, 18)]; [(16, 14); (14, 13)]; [(20, 18); (16, 15)]; [(20, 18); (18, 17)]]).
Proof. intros [|]; vm_compute; auto 20. Qed.

(** ** BT:677-736: remove_duplicate_states *)
Example dup_single : forall pr, let l := [[(20, 19)]] in remove_duplicate_states pr (bd [(20, -1)] 0 0 0 0) l (-1) = Ok l.
Proof. intros [|]; vm_compute; auto 20. Qed.
Example dup_sequence : forall pr, let l := [[(20, 19); (19, 18)]] in remove_duplicate_states pr (bd [(20, -1)] 0 0 0 0) l (-1) = Ok l.
Proof. intros [|]; vm_compute; auto 20. Qed.
Example dup_removed : forall pr, remove_duplicate_states pr (bd [(20, -1)] 0 0 0 0) [[(20, 19); (19, 17)]; [(20, 18); (18, 17)]] (-1) = Ok [[(20, 19); (19, 17)]].
Proof. intros [|]; vm_compute; auto 20. Qed.
Example dup_hit : forall pr, let l := [[(20, 19); (19, 17)]; [(20, 18); (18, 17)]] in remove_duplicate_states pr (bd [(20, -1); (19, 1)] 0 0 0 0) l (-1) = Ok l.
Proof. intros [|]; vm_compute; auto 20. Qed.

(** ** BT:737-864: get_entry_moves *)
Example entry_none_p1 : forall pr, get_entry_moves pr [] (bd [] 1 0 0 0) (-1) = Ok [].
Proof. intros [|]; vm_compute; auto 20. Qed.
Example entry_blocked_p1 : forall pr, get_entry_moves pr [3] (bd [(21, 2)] 1 0 0 0) (-1) = Ok [].
Proof. intros [|]; vm_compute; auto 20. Qed.
Example entry_one_p1 : forall pr, holds (get_entry_moves pr [3] (bd [] 1 0 0 0) (-1)) (fun ms => length ms = 1%nat /\ map value ms = [(-1, 21)]).
Proof. intros [|]; vm_compute; auto 20. Qed.
Example entry_multiple_p1 : forall pr, holds (get_entry_moves pr [3; 2] (bd [(19, 2)] 1 0 0 0) (-1)) (fun ms => length ms = 2%nat /\ map value ms = [(-1, 22); (-1, 21)]).
Proof. intros [|]; vm_compute; auto 20. Qed.
Example entry_none_p2 : forall pr, get_entry_moves pr [] (bd [] 0 1 0 0) 1 = Ok [].
Proof. intros [|]; vm_compute; auto 20. Qed.
Example entry_blocked_p2 : forall pr, get_entry_moves pr [3] (bd [(2, -2)] 0 1 0 0) 1 = Ok [].
Proof. intros [|]; vm_compute; auto 20. Qed.
Example entry_one_p2 : forall pr, holds (get_entry_moves pr [3] (bd [] 0 1 0 0) 1) (fun ms => length ms = 1%nat /\ map value ms = [(-1, 2)]).
Proof. intros [|]; vm_compute; auto 20. Qed.
Example entry_multiple_p2 : forall pr, holds (get_entry_moves pr [3; 2] (bd [(4, -2)] 0 1 0 0) 1) (fun ms => length ms = 2%nat /\ map value ms = [(-1, 1); (-1, 2)]).
Proof. intros [|]; vm_compute; auto 20. Qed.

(** ** BT:865-926: get_valid_moves *)
Definition turn_of (b : board) (d : Z * Z) : bg := mkBg b d (-1) false 0.
Example valid_none : forall pr, bg_valid_moves pr (turn_of (bd [(20, -1); (19, 2); (18, 2)] 0 0 0 0) (1, 2)) = Ok [].
Proof. intros [|]; vm_compute; auto 20. Qed.
Example valid_inverted : forall pr, bg_valid_moves pr (turn_of (bd [(20, -1)] 0 0 0 0) (1, 2)) = bg_valid_moves pr (turn_of (bd [(20, -1)] 0 0 0 0) (2, 1)).
Proof. intros [|]; vm_compute; auto 20. Qed.
Example valid_normal : forall pr, bg_valid_moves pr (turn_of (bd [(20, -1)] 0 0 0 0) (1, 2)) = Ok [[(20, 19); (19, 17)]].
Proof. intros [|]; vm_compute; auto 20. Qed.
Example valid_entry : forall pr, bg_valid_moves pr (turn_of (bd [(21, 2)] 1 0 0 0) (1, 2)) = Ok [[(-1, 23)]; [(-1, 22)]].
Proof. intros [|]; vm_compute; auto 20. Qed.
(** BT:918-926 expects the four moves of a double at once; the code at this commit plays a double as two
    turns of two moves (BL:406-409, 176-186), so this one test fails on the model as it must on the
    code.  What [get_valid_moves] returns, and the other half of the turn: *)
Example valid_double : forall pr, let s := turn_of (bd [(20, -1)] 0 0 0 0) (1, 1) in
  bg_valid_moves pr s = Ok [[(20, 19); (19, 18)]]
  /\ holds (bg_apply_move pr s [(20, 19); (19, 18)] rng0) (fun sr => player (fst sr) = -1 /\ second (fst sr) = true
       /\ bg_valid_moves pr (fst sr) = Ok [[(18, 17); (17, 16)]]).
Proof. intros [|]; vm_compute; auto 20. Qed.

(** ** ET: the action codec, all cases of the three groups *)
Definition codec_case (pr : profile) (c : Z * Z * Z * actions) : bool :=
  let '(d0, d1, p, acts) := c in
  let s := mkBg (bd [] 0 0 0 0) (d0, d1) p false 0 in
  match encode_inherent pr s acts with
  | Ok e => match decode_inherent pr s e with Ok a => list_eqb (flat_map (fun x => [fst x; snd x]) a) (flat_map (fun x => [fst x; snd x]) acts) | Panic _ => false end
  | Panic _ => false
  end.
Definition codec_cases : list (Z * Z * Z * actions) :=
  [(2, 1, -1, []);
   (2, 1, -1, [(4, 2)]);
   (2, 1, -1, [(4, 3)]);
   (2, 1, -1, [(-1, 22)]);
   (2, 1, -1, [(-1, 23)]);
   (2, 1, -1, [(1, -1)]);
   (2, 1, -1, [(0, -1)]);
   (6, 3, -1, [(1, -1)]);
   (6, 3, -1, [(2, -1)]);
   (2, 1, 1, [(19, 21)]);
   (2, 1, 1, [(19, 20)]);
   (2, 1, 1, [(-1, 1)]);
   (2, 1, 1, [(-1, 0)]);
   (2, 1, 1, [(22, -1)]);
   (2, 1, 1, [(23, -1)]);
   (6, 3, 1, [(22, -1)]);
   (6, 3, 1, [(21, -1)]);
   (2, 1, -1, [(23, 21); (5, 4)]);
   (2, 1, -1, [(-1, 22); (-1, 23)]);
   (2, 1, -1, [(1, -1); (0, -1)]);
   (4, 6, -1, [(1, -1); (0, -1)]);
   (2, 1, -1, [(5, 4); (23, 21)]);
   (2, 1, -1, [(-1, 23); (-1, 22)]);
   (2, 1, -1, [(0, -1); (1, -1)]);
   (4, 6, -1, [(0, -1); (1, -1)]);
   (2, 1, 1, [(1, 3); (21, 22)]);
   (2, 1, 1, [(-1, 1); (-1, 0)]);
   (2, 1, 1, [(22, -1); (23, -1)]);
   (4, 6, 1, [(22, -1); (23, -1)]);
   (2, 1, 1, [(4, 5); (21, 23)]);
   (2, 1, 1, [(-1, 0); (-1, 1)]);
   (2, 1, 1, [(23, -1); (22, -1)]);
   (4, 6, 1, [(23, -1); (22, -1)]);
   (6, 1, -1, [(-1, 18); (18, 17)]);
   (6, 1, -1, [(-1, 23); (23, 17)]);
   (6, 5, -1, [(6, 0); (3, -1)]);
   (6, 5, -1, [(6, 1); (3, -1)]);
   (6, 1, 1, [(-1, 5); (5, 6)]);
   (6, 1, 1, [(-1, 0); (0, 6)]);
   (6, 5, 1, [(17, 23); (20, -1)]);
   (6, 5, 1, [(17, 22); (20, -1)]);
   (4, 5, -1, [(0, -1); (0, -1)]);
   (2, 1, -1, [(0, -1); (0, -1)]);
   (6, 1, 1, [(21, -1)]);
   (4, 5, 1, [(0, 4); (0, 5)]);
   (5, 3, 1, [(22, -1); (18, 21)])].
Example codec : forall pr, length codec_cases = 46%nat /\ forallb (codec_case pr) codec_cases = true.
Proof. intros [|]; vm_compute; auto. Qed.

(** ** TE *)
Example ttt_initial : fold_left Z.add (tboard ttt_new) 0 = 0 /\ tplayer ttt_new = -1.
Proof. vm_compute. auto. Qed.
Example ttt_switch : forall pr, holds (ttt_apply_move pr ttt_new 0) (fun s => tplayer s = - tplayer ttt_new).
Proof. intros [|]; vm_compute; auto. Qed.
Example ttt_board : forall pr, holds (ttt_apply_move pr ttt_new 5) (fun s => nth_error (tboard s) 5 = Some (-1)).
Proof. intros [|]; vm_compute; auto. Qed.
Example ttt_moves_empty : length (ttt_valid_moves ttt_new) = 9%nat /\ ttt_valid_moves ttt_new = map Z.of_nat (seq 0 (length (tboard ttt_new))).
Proof. vm_compute. auto. Qed.
Example ttt_moves_full : ttt_valid_moves (mkTtt (-1) [1; 1; -1; -1; 1; 1; -1; -1; -1] 0) = [].
Proof. vm_compute. auto. Qed.
Example ttt_moves_normal : ttt_valid_moves (mkTtt (-1) [1; 1; -1; -1; 1; 0; -1; 0; 0] 0) = [5; 7; 8].
Proof. vm_compute. auto. Qed.
Example ttt_winner : ttt_check_winner ttt_new = None /\ ttt_check_winner (mkTtt (-1) [1; 1; -1; 1; -1; -1; -1; 0; 0] 0) = Some (-1)
  /\ ttt_check_winner (mkTtt (-1) [-1; -1; 1; -1; 1; -1; 1; 0; 0] 0) = Some 1.
Proof. vm_compute. auto. Qed.

(** ** ME: rows of priors and of visit distributions add up to one (up to 1e-5; the random policy of
    the test is replaced by ten different ones). *)
Definition near_one (x : f32) : bool := SFleb (SFabs (fsub x f1)) (fdiv f1 (f32_of_Z 100000)).
Definition ten_roots (pr : profile) : res (store (ttt_game pr)) :=
  mfold (fun st (_ : nat) => '(_, st') <- add_node (G := ttt_game pr) st ttt_new None None f0 ;; Ok st') (seq 0 10) [].
Definition ten_policies : tensor f32 :=
  mkT [10; 9]%nat (map (fun i => fdiv (f32_of_Z (Z.of_nat (i * i mod 89))) (f32_of_Z 89)) (seq 1 90)).
Example probs_tensor_sums : forall pr, match (st <- ten_roots pr ;; turn_policy_to_probs_tensor_parallel tsum0 st (seq 0 10) ten_policies) with
  | Ok t => shape t = [10; 9]%nat /\ forallb (fun row => near_one (tsum0 row)) (rows t) = true
  | Panic _ => False end.
Proof. intros [|]; vm_compute; auto. Qed.
Definition visited (pr : profile) : res (store (ttt_game pr)) :=
  '(root, st) <- add_node (G := ttt_game pr) [] ttt_new None None f0 ;;
  st' <- mfold (fun st (i : nat) => '(c, st1) <- add_node (G := ttt_game pr) st ttt_new (Some root) (Some (Z.of_nat i)) f0 ;;
                 match nth_error st1 c with
                 | Some m => Ok (set_nth st1 c (mkNode (n_state m) (n_idx m) (n_parent m) (n_children m) (f32_of_Z 10) (n_value m) (n_policy m) (n_action m) (n_exp m)))
                 | None => Panic PIndex
                 end) (seq 1 8) st ;;
  n <- get_node st' 0 ;;
  set_node st' (mkNode (n_state n) (n_idx n) (n_parent n) (seq 1 8) (n_visits n) (n_value n) (n_policy n) (n_action n) (n_exp n)).
Example visit_sums : forall pr, match (st <- visited pr ;; n <- get_node st 0 ;; get_prob_tensor_parallel tsum0 [n] st) with
  | Ok rows => map (@length f32) rows = [9]%nat /\ forallb (fun row => near_one (tsum0 row)) rows = true
  | Panic _ => False end.
Proof. intros [|]; vm_compute; auto. Qed.
