(** * ShowModel: what is written to the console.
    src/backgammon/backgammon_logic.rs:36-52, 110-174 (BL), src/tictactoe/mod.rs:110-116 (TT),
    src/mcts/node_store.rs:14-16, 67-94 (NS), src/versus.rs:75-105, 141-152 (VS), src/main.rs:208-213 (MN).
    Texts are lists of bytes; integers are written in decimal as in JsonModel. *)
From Verif Require Export JsonModel McModel.
Local Open Scope Z_scope.

Definition TAB : ascii := chr 9.
(** [join] of slices and of itertools *)
Fixpoint join (sep : ascii) (ls : list text) : text :=
  match ls with [] => [] | [l] => l | l :: ls' => l ++ sep :: join sep ls' end.
(** [{:?}] of a pair of integers *)
Definition show_pair (p : Z * Z) : text := txt "(" ++ print_int (fst p) ++ txt ", " ++ print_int (snd p) ++ txt ")".

(** TT:110-116; the board is an array of nine *)
Definition ttt_pretty (s : ttt) : res text :=
  c <- mmap (fun i => v <- idx (tboard s) i ;; Ok (print_int v)) [0; 1; 2; 3; 4; 5; 6; 7; 8] ;;
  match c with
  | [c0; c1; c2; c3; c4; c5; c6; c7; c8] =>
    Ok (c0 ++ txt "|" ++ c1 ++ txt "|" ++ c2 ++ [NL] ++ c3 ++ txt "|" ++ c4 ++ txt "|" ++ c5 ++ [NL] ++ c6 ++ txt "|" ++ c7 ++ txt "|" ++ c8)
  | _ => Panic PIndex
  end.

(** BL:120-131, 137-148: one field of the picture; [abs] is the i8 operation *)
Definition show_cell (pr : profile) (i p : Z) : res text :=
  a <- i8 pr (Z.abs p) ;;
  if (i =? 6) && (i <=? a) then Ok (txt "+" ++ print_int (a - 5))
  else if i <=? a then Ok (if p <? 0 then txt "x" else txt "o")
  else Ok (txt " ").
(** BL:155-160: bars in the middle, in front and at the end *)
Definition bars (row : list text) : list text :=
  let m := Nat.div (length row) 2 in
  txt "|" :: (firstn m row ++ txt "|" :: skipn m row) ++ [txt "|"].
(** BL:110-174 *)
Definition bg_pretty (pr : profile) (s : bg) : res text :=
  let b := bgboard s in
  let n := Z.of_nat (length (pts b)) in
  let board_bot := map print_int (rev (range 0 (n / 2))) in
  let board_top := map print_int (range (n / 2) n) in
  bot <- mmap (fun i => mmap (fun pos => p <- idx (pts b) pos ;; show_cell pr i p) (rev (range 0 (n / 2)))) [1; 2; 3; 4; 5; 6] ;;
  first <- idx bot 0 ;;
  let gap := repeat (txt " ") (length first) in
  top <- mmap (fun i => mmap (show_cell pr i) (skipn (Z.to_nat (n / 2)) (pts b))) [6; 5; 4; 3; 2; 1] ;;
  let final := map bars ([board_bot] ++ bot ++ [gap] ++ top ++ [board_top]) in
  let picture := join NL (map (join TAB) (rev final)) in
  let who := if player s =? -1 then txt "Player 1" else txt "Player 2" in
  let info1 := txt "Player 1:" ++ [NL; TAB] ++ txt "Broken Pieces: " ++ print_int (hit1 b) ++ [NL; TAB] ++ txt "Pieces Collected:" ++ print_int (col1 b) in
  let info2 := txt "Player 2:" ++ [NL; TAB] ++ txt "Broken Pieces: " ++ print_int (hit2 b) ++ [NL; TAB] ++ txt "Pieces Collected:" ++ print_int (col2 b) in
  let info := txt "Current turn: " ++ who ++ [TAB] ++ txt "Roll: " ++ show_pair (roll s) ++ [NL] ++ info1 ++ [NL] ++ info2 in
  let line := repeat "="%char 110 in
  Ok (info ++ [NL] ++ line ++ [NL] ++ picture ++ [NL] ++ line).

(** NS:72-94: the lines of the tree below node [i]; [left] counts the levels that are still shown.
    A line is the indentation, the index and the values of the node; how numbers and actions are
    formatted is left out *)
Record tline (M : Type) := mkLine { l_depth : nat; l_idx : nat; l_action : option M; l_visits : f32; l_value : f32; l_ucb : f32; l_pct : f32 }.
Arguments mkLine {M}. Arguments l_depth {M}. Arguments l_idx {M}. Arguments l_action {M}. Arguments l_visits {M}. Arguments l_value {M}. Arguments l_ucb {M}. Arguments l_pct {M}.
Section Tree.
  Variable G : Game.
  Variable ln : f32 -> f32.
  Variable st : store G.
  Variable c : f32.
  Fixpoint print_levels (left cur i : nat) : res (list (tline (Mv G))) :=
    match left with
    | O => Ok []
    | S left' =>
      n <- get_node st i ;;
      u <- ucb ln n st c ;;
      rest <- mmap (print_levels left' (S cur)) (n_children n) ;;
      Ok (mkLine cur i (n_action n) (n_visits n) (n_value n) u (win_pct n) :: concat rest)
    end.
  (** NS:67-70 *)
  Definition pretty_print (i depth : nat) : res (list (tline (Mv G))) := print_levels (S depth) 0 i.
End Tree.
Arguments print_levels {G}. Arguments pretty_print {G}.

(** VS:141-152; [showf] writes an f64 *)
Definition dmul : f64 -> f64 -> f64 := SFmul 53 1024.
Definition percent (rate : f64) : f64 := dmul rate (f64_of_Z 100).
Definition summary {G} (showf : f64 -> text) (r : result G) : text :=
  txt "Player 1: " ++ agent_name (r_p1 r) ++ [NL] ++ txt "Player 2: " ++ agent_name (r_p2 r) ++ [NL]
  ++ txt "Wins Player 1: " ++ print_int (r_wins1 r) ++ [NL] ++ txt "Wins Player 2: " ++ print_int (r_wins2 r) ++ [NL]
  ++ txt "Draws: " ++ print_int (r_draws r) ++ [NL] ++ txt "Number of Games: " ++ print_int (r_n r) ++ [NL]
  ++ txt "Winrate: " ++ showf (percent (r_winrate r)) ++ txt "%" ++ [NL].

(** VS:75-105, the command [replay] (MN:208-213): the file [f] is loaded and shown; [pretty] is
    [to_pretty_str] of the game and [dbg] writes the positions of a turn.  Reading a line from the
    keyboard does not fail. *)
Definition show_roll (r : option (Z * Z)) : text := match r with Some p => txt "Some(" ++ show_pair p ++ txt ")" | None => txt "None" end.
Definition println (t : text) : text := t ++ [NL].
Definition replay {T} (rd : json -> option T) (pretty : T -> res text) (dbg : list T -> text) (wait : bool) (f : text) : res text :=
  match load_game rd f with
  | None => Panic PExplicit
  | Some g =>
    let head := println (txt "Game ID: " ++ sg_id g) ++ println (txt "Player 1: " ++ agent_name (sg_p1 g) ++ txt ", Player 2: " ++ agent_name (sg_p2 g))
      ++ println (txt "Game winner: " ++ agent_name (sg_winner g)) ++ println (txt "Initial State:") in
    first <- pretty (sg_init g) ;;
    turns <- mmap (fun t =>
      p <- pretty (sg_init g) ;;
      Ok (println (txt "Player: " ++ agent_name (st_player t)) ++ println (txt "Roll: " ++ show_roll (st_roll t)) ++ println (txt "Action: " ++ dbg (st_action t))
          ++ println (txt "State after action has been played:") ++ println p ++ (if wait then println (txt "Press Enter to continue...") else []))) (sg_turns g) ;;
    Ok (head ++ println first ++ concat turns)
  end.
