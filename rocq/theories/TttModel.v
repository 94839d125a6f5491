(** * TttModel: src/tictactoe/mod.rs (abbreviated TT), function by function. *)
From Verif Require Export Base Tensor.

(** TT:6-13 *)
Record ttt := mkTtt { tplayer : Z; tboard : list Z; tid : Z }.
(** TT:18, 20, 28-30 *)
Definition ttt_EMPTY : Z := 10.
Definition ttt_ACTIONS : Z := 9.
Definition ttt_new : ttt := mkTtt (-1) (repeat 0 9) 0.
(** TT:36-44; the index is below 9, so [try_into] to u8 cannot fail *)
Definition ttt_valid_moves (s : ttt) : list Z :=
  map fst (filter (fun iv => snd iv =? 0)
                  (combine (range 0 (Z.of_nat (length (tboard s)))) (tboard s))).
(** TT:46-49 *)
Definition ttt_apply_move (pr : profile) (s : ttt) (a : Z) : res ttt :=
  b <- upd (tboard s) a (tplayer s) ;;
  p <- i8 pr (tplayer s * -1) ;;
  Ok (mkTtt p b (tid s)).
(** TT:51-53 *)
Definition ttt_skip_turn (pr : profile) (s : ttt) : res ttt :=
  p <- i8 pr (tplayer s * -1) ;; Ok (mkTtt p (tboard s) (tid s)).
(** TT:60-64 *)
Definition combos : list (Z * Z * Z) :=
  [(0, 1, 2); (3, 4, 5); (6, 7, 8); (0, 3, 6); (1, 4, 7); (2, 5, 8); (0, 4, 8); (2, 4, 6)].
(** reads of the 9-element array with constant indices below 9 *)
Definition cell (b : list Z) (i : Z) : Z := nth (Z.to_nat i) b 0.
(** TT:66-74 *)
Fixpoint find_line (b : list Z) (l : list (Z * Z * Z)) : option Z :=
  match l with
  | [] => None
  | (x, y, z) :: l' =>
    if negb (cell b x =? 0) && (cell b x =? cell b y) && (cell b y =? cell b z)
    then Some (cell b x) else find_line b l'
  end.
(** TT:59-79 *)
Definition ttt_check_winner (s : ttt) : option Z :=
  match find_line (tboard s) combos with
  | Some a => Some a
  | None => if forallb (fun v => negb (v =? 0)) (tboard s) then Some 0 else None
  end.
(** TT:81-92 *)
Definition ttt_as_tensor (s : ttt) : res (tensor Z) :=
  bt <- view_as [3; 3]%nat (from_slice (tboard s)) ;;
  st <- stack 0 0 [eq_scalar (-1) bt; eq_scalar 0 bt; eq_scalar 1 bt] ;;
  Ok (unsqueeze0 st).
(** TT:94-100; codes are u32, moves u8 *)
Definition ttt_decode (c : Z) : res Z := if (0 <=? c) && (c <=? 255) then Ok c else Panic PUnwrap.
Definition ttt_encode (m : Z) : Z := m.
