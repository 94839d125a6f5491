(** * RaceSpec: positions in which the players have passed each other. *)
From Verif Require Import Base BgModel BgSpec.
Local Open Scope Z_scope.

(** nobody is on the bar and all checkers of player -1, who moves down, are below those of player 1 *)
Definition passed (q : pos) : Prop :=
  bar q P1 = 0 /\ bar q P2 = 0 /\ forall i j, on_board i -> on_board j -> 0 < men q P1 i -> 0 < men q P2 j -> i < j.

(** [n] moves played from [st], a turn being skipped if there is none *)
Inductive course (pr : profile) : nat -> bg -> bg -> Prop :=
| course_here st : course pr 0 st st
| course_move n st st1 st2 mvs m r r' : bg_check_winner st = None -> bg_valid_moves pr st = Ok mvs -> In m mvs -> bg_apply_move pr st m r = Ok (st1, r') ->
    course pr n st1 st2 -> course pr (S n) st st2
| course_skip n st st1 st2 r r' : bg_check_winner st = None -> bg_valid_moves pr st = Ok [] -> bg_skip_turn pr st r = Ok (st1, r') ->
    course pr n st1 st2 -> course pr (S n) st st2.

(** the distance both players still have to go *)
Definition distance (st : bg) : Z := pips (view (bgboard st)) P1 + pips (view (bgboard st)) P2.

(** both players are on the bar against six closed points: whatever is rolled, nobody can enter *)
Definition deadlock (q : pos) : Prop := forall s, 0 < bar q s /\ forall d, die d -> blocked q s (entry s d).
