(** * ShowSpec: what the texts should show. *)
From Verif Require Export ShowModel JsonSpec McSpec AlphaSpec VersusSpec.

(** the [k]-th field of the column of a point with [p] checkers, counted from the rim: one symbol for
    each of the first five checkers, x for player 1 and o for player 2, then how many more there are *)
Definition checker (p : Z) (k : Z) : text :=
  if k <=? Z.min 5 (Z.abs p) then (if p <? 0 then txt "x" else txt "o")
  else if (k =? 6) && (6 <=? Z.abs p) then txt "+" ++ print_int (Z.abs p - 5) else txt " ".
(** line [r] of the picture (0 at the top), column [c] (0 to 11): the points 12 to 23 hang from the
    top, the points 11 to 0 stand at the bottom *)
Definition field_at (b : board) (r c : nat) : text :=
  let k := Z.of_nat r in
  if k =? 0 then print_int (12 + Z.of_nat c)
  else if k <=? 6 then checker (nth (12 + c) (pts b) 0) k
  else if k =? 7 then txt " "
  else if k <=? 13 then checker (nth (11 - c) (pts b) 0) (14 - k)
  else print_int (11 - Z.of_nat c).
Definition row_at (b : board) (r : nat) : text :=
  join TAB ([txt "|"] ++ map (field_at b r) (seq 0 6) ++ [txt "|"] ++ map (field_at b r) (seq 6 6) ++ [txt "|"]).
Definition rim : text := repeat "="%char 110.
(** the whole text, line by line *)
Definition bg_lines (s : bg) : list text :=
  let b := bgboard s in
  [txt "Current turn: Player " ++ (if player s =? -1 then txt "1" else txt "2") ++ [TAB] ++ txt "Roll: (" ++ print_int (fst (roll s)) ++ txt ", " ++ print_int (snd (roll s)) ++ txt ")";
   txt "Player 1:"; TAB :: txt "Broken Pieces: " ++ print_int (hit1 b); TAB :: txt "Pieces Collected:" ++ print_int (col1 b);
   txt "Player 2:"; TAB :: txt "Broken Pieces: " ++ print_int (hit2 b); TAB :: txt "Pieces Collected:" ++ print_int (col2 b);
   rim] ++ map (row_at b) (seq 0 15) ++ [rim].

(** how many steps node [j] is below node [i] *)
Inductive below {G} (st : store G) (i : nat) : nat -> nat -> Prop :=
| below_here : below st i 0 i
| below_child k j n m : below st i k j -> nth_error st j = Some n -> In m (n_children n) -> below st i (S k) m.
(** a Backgammon position whose points can all be shown: [i8::abs] has no result for -128 *)
Definition drawable (s : bg) : Prop := typed_board (bgboard s) /\ Forall (fun p => p <> -128) (pts (bgboard s)) /\ is_u8 (fst (roll s)) /\ is_u8 (snd (roll s)).
Definition ttt_lines (s : ttt) : list text :=
  map (fun r => join "|"%char (map (fun c => print_int (nth (3 * r + c) (tboard s) 0)) [0; 1; 2]%nat)) [0; 1; 2]%nat.
(** the lines a printed tree should have: the nodes at most [depth] steps below [i], each once *)
Record shows {G} (ln : f32 -> f32) (st : store G) (c : f32) (i depth : nat) (ls : list (tline (Mv G))) : Prop := {
  sh_once : NoDup (map l_idx ls);
  sh_nodes : forall k j, (exists l, In l ls /\ l_idx l = j /\ l_depth l = k) <-> below st i k j /\ (k <= depth)%nat;
  sh_values : forall l, In l ls -> exists n u, nth_error st (l_idx l) = Some n /\ ucb ln n st c = Ok u
    /\ l = mkLine (l_depth l) (l_idx l) (n_action n) (n_visits n) (n_value n) u (fdiv (n_value n) (n_visits n));
  (** the first line is the node itself; every other line stands below the line of its parent, the
      nearest one above that is indented one step less *)
  sh_first : option_map l_idx (hd_error ls) = Some i;
  sh_parent : forall a l b, ls = a ++ l :: b -> a <> [] -> exists a1 p a2 n, a = a1 ++ p :: a2 /\ l_depth l = S (l_depth p)
    /\ nth_error st (l_idx p) = Some n /\ In (l_idx l) (n_children n) /\ Forall (fun x => (l_depth p < l_depth x)%nat) a2
}.
(** [x] is a number at most [2^-k] away from [num / 4] *)
Definition near4 (k : Z) (x : f64) (num : Z) : Prop :=
  match x with
  | S754_zero _ => Z.abs num * 2 ^ k <= 4
  | S754_finite s m e => -100 <= e /\ Z.abs ((if s then Z.neg m else Z.pos m) * 2 ^ (e + 100) * 4 - num * 2 ^ 100) * 2 ^ k <= 4 * 2 ^ 100
  | _ => False
  end.
(** the numbers of wins out of 400 whose percentage is not shown exactly *)
Definition inexact : list Z := [7; 14; 28; 29; 55; 56; 57; 58; 109; 110; 111; 112; 113; 114; 115; 116; 201; 203; 205; 207; 218; 220; 222; 224; 226; 228; 230; 232; 243; 245; 247; 249; 251; 253; 255].
Definition unlines (ls : list text) : text := concat (map (fun l => l ++ [NL]) ls).
(** what the command [replay] shows of a game, if [board] is the picture of its first position *)
Definition replay_head {T} (g : sgame T) : list text :=
  [txt "Game ID: " ++ sg_id g; txt "Player 1: " ++ agent_name (sg_p1 g) ++ txt ", Player 2: " ++ agent_name (sg_p2 g); txt "Game winner: " ++ agent_name (sg_winner g); txt "Initial State:"].
Definition replay_turn {T} (dbg : list T -> text) (wait : bool) (board : text) (t : sturn T) : list text :=
  [txt "Player: " ++ agent_name (st_player t); txt "Roll: " ++ match st_roll t with Some (a, b) => txt "Some((" ++ print_int a ++ txt ", " ++ print_int b ++ txt "))" | None => txt "None" end;
   txt "Action: " ++ dbg (st_action t); txt "State after action has been played:"; board] ++ (if wait then [txt "Press Enter to continue..."] else []).
