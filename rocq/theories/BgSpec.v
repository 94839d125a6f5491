(** * BgSpec: the rules of backgammon, written independently of the code.

    A position is given by checker counts.  The only link to the model is [view],
    which reads the counts off the signed board array, and [mv_of]/[act_of], which
    relate the code's (from, to) pairs to rule-book moves. *)
From Verif Require Import Base BgModel.

(** Player -1 of the code is [P1]: moves towards point 0, home is 0..5.
    Player 1 is [P2]: moves towards point 23, home is 18..23. *)
Inductive side := P1 | P2.
Definition sign (s : side) : Z := match s with P1 => -1 | P2 => 1 end.
Definition opp (s : side) : side := match s with P1 => P2 | P2 => P1 end.
Definition side_eqb (a b : side) : bool :=
  match a, b with P1, P1 => true | P2, P2 => true | _, _ => false end.

(** Checker counts per side: on a point, on the bar, borne off. *)
Record pos := mkPos { men : side -> Z -> Z; bar : side -> Z; off : side -> Z }.

Definition pos_eq (a b : pos) : Prop :=
  (forall s i, men a s i = men b s i) /\ (forall s, bar a s = bar b s)
  /\ (forall s, off a s = off b s).

Definition on_board (i : Z) : Prop := 0 <= i <= 23.

(** Pips a checker on point [i] still has to travel to be borne off. *)
Definition pip (s : side) (i : Z) : Z := match s with P1 => i + 1 | P2 => 24 - i end.
(** The point on which a die enters a checker from the bar. *)
Definition entry (s : side) (d : Z) : Z := match s with P1 => 24 - d | P2 => d - 1 end.

(** A single checker move. *)
Inductive mv := Enter (to : Z) | Move (from to : Z) | Off (from : Z).

Definition all_home (q : pos) (s : side) : Prop :=
  bar q s = 0 /\ forall i, on_board i -> 0 < men q s i -> pip s i <= 6.
Definition blocked (q : pos) (s : side) (i : Z) : Prop := 2 <= men q (opp s) i.

(** The rules: [legal s d q m] - side [s] may make move [m] with die [d] in [q]. *)
Inductive legal (s : side) (d : Z) (q : pos) : mv -> Prop :=
| legal_enter :
    0 < bar q s -> ~ blocked q s (entry s d) -> legal s d q (Enter (entry s d))
| legal_move i :
    bar q s = 0 -> on_board i -> 0 < men q s i ->
    on_board (i + sign s * d) -> ~ blocked q s (i + sign s * d) ->
    legal s d q (Move i (i + sign s * d))
| legal_off_exact i :
    all_home q s -> on_board i -> 0 < men q s i -> pip s i = d ->
    legal s d q (Off i)
| legal_off_over i :
    all_home q s -> on_board i -> 0 < men q s i -> pip s i < d ->
    (forall j, on_board j -> 0 < men q s j -> pip s j <= pip s i) ->
    legal s d q (Off i).

(** The same without the restriction on bearing off with a larger die. *)
Inductive loose (s : side) (d : Z) (q : pos) : mv -> Prop :=
| loose_legal m : legal s d q m -> loose s d q m
| loose_off i :
    all_home q s -> on_board i -> 0 < men q s i -> pip s i <= d ->
    loose s d q (Off i).

(** Effect of a move: a checker leaves its source, arrives at its destination,
    and a single opposing checker there goes to the bar. *)
Definition leave (q : pos) (s : side) (f : Z) : pos :=
  mkPos (fun x i => if side_eqb x s && (i =? f) then men q x i - 1 else men q x i)
        (bar q) (off q).
Definition leave_bar (q : pos) (s : side) : pos :=
  mkPos (men q) (fun x => if side_eqb x s then bar q x - 1 else bar q x) (off q).
Definition is_blot (q : pos) (s : side) (t : Z) : bool := men q (opp s) t =? 1.
Definition land (q : pos) (s : side) (t : Z) : pos :=
  mkPos (fun x i => if i =? t then
                      if side_eqb x s then men q x i + 1
                      else if is_blot q s t then 0 else men q x i
                    else men q x i)
        (fun x => if side_eqb x s then bar q x
                  else if is_blot q s t then bar q x + 1 else bar q x)
        (off q).
Definition bear (q : pos) (s : side) : pos :=
  mkPos (men q) (bar q) (fun x => if side_eqb x s then off q x + 1 else off q x).
Definition effect (q : pos) (s : side) (m : mv) : pos :=
  match m with
  | Enter t => land (leave_bar q s) s t
  | Move f t => land (leave q s f) s t
  | Off f => bear (leave q s f) s
  end.
Definition effects (q : pos) (s : side) (ms : list mv) : pos :=
  fold_left (fun q m => effect q s m) ms q.

(** What can physically be played: the source holds a checker, the destination is not
    blocked.  Weaker than [legal] and [loose]: no dice, no bearing-off condition. *)
Definition playable (q : pos) (s : side) (m : mv) : Prop :=
  match m with
  | Enter t => 0 < bar q s /\ on_board t /\ ~ blocked q s t
  | Move f t => on_board f /\ on_board t /\ f <> t /\ 0 < men q s f /\ ~ blocked q s t
  | Off f => on_board f /\ 0 < men q s f
  end.
Inductive seq_playable (s : side) : pos -> list mv -> Prop :=
| sp_nil q : seq_playable s q []
| sp_cons q m ms : playable q s m -> seq_playable s (effect q s m) ms -> seq_playable s q (m :: ms).

(** [play L s dice q ms]: [ms] is a sequence of moves, each permitted by [L] with
    a die of [dice] not used before; [stop] must hold of the dice left over and the
    position reached. *)
Inductive play (L : Z -> pos -> mv -> Prop) (stop : list Z -> pos -> Prop) (s : side)
  : list Z -> pos -> list mv -> Prop :=
| play_stop dice q : stop dice q -> play L stop s dice q []
| play_step d1 d d2 q m ms :
    L d q m -> play L stop s (d1 ++ d2) (effect q s m) ms ->
    play L stop s (d1 ++ d :: d2) q (m :: ms).

(** No remaining die can be used. *)
Definition stuck (s : side) (dice : list Z) (q : pos) : Prop :=
  forall d m, In d dice -> ~ legal s d q m.

(** A maximal legal play: standard moves, stop only when stuck. *)
Definition turn (s : side) := play (legal s) (stuck s) s.

(** No opposing checker in the home board of [s]. *)
Definition clear_home (q : pos) (s : side) : Prop :=
  forall i, on_board i -> pip s i <= 6 -> men q (opp s) i = 0.

(** Number of checkers a side owns. *)
Definition zsum (f : Z -> Z) : Z := fold_right Z.add 0 (map f (range 0 24)).
Definition checkers (q : pos) (s : side) : Z := zsum (men q s) + bar q s + off q s.

(** Pip count: total distance a side still has to travel (25 from the bar). *)
Definition pips (q : pos) (s : side) : Z :=
  zsum (fun i => pip s i * men q s i) + 25 * bar q s.

(** ** Link to the code's data *)
(** Signed array: negative entries are checkers of player -1, positive of player 1. *)
Definition view (b : board) : pos :=
  mkPos (fun s i => if (0 <=? i) && (i <=? 23) then Z.max 0 (sign s * at_pt (pts b) i) else 0)
        (fun s => match s with P1 => hit1 b | P2 => hit2 b end)
        (fun s => match s with P1 => col1 b | P2 => col2 b end).

(** BL:11: to = -1 is collecting, from = -1 is entering. *)
Definition mv_of (a : action) : mv :=
  let (f, t) := a in
  if t =? -1 then Off f else if f =? -1 then Enter t else Move f t.
Definition act_of (m : mv) : action :=
  match m with Enter t => (-1, t) | Move f t => (f, t) | Off f => (f, -1) end.

(** A well-formed board: 24 points, no negative counters, 15 checkers a side. *)
Definition WF (b : board) : Prop :=
  length (pts b) = 24%nat
  /\ 0 <= hit1 b /\ 0 <= hit2 b /\ 0 <= col1 b /\ 0 <= col2 b
  /\ checkers (view b) P1 = 15 /\ checkers (view b) P2 = 15.

(** Rolled dice. *)
Definition die (d : Z) : Prop := 1 <= d <= 6.
Definition rolled (rl : Z * Z) : Prop := die (fst rl) /\ die (snd rl).

(** The mirror image: points reversed, colours exchanged. *)
Definition mirror (b : board) : board :=
  mkBoard (map Z.opp (rev (pts b))) (hit2 b) (hit1 b) (col2 b) (col1 b).
