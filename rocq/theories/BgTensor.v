(** * BgTensor: [Backgammon::as_tensor] and [TicTacToe::as_tensor] (model only). *)
From Verif Require Export Tensor BgModel.

(** BL:198-252 *)
Definition bg_as_tensor (s : bg) : res (tensor Z) :=
  if (fst (roll s) =? 0) && (snd (roll s) =? 0) then Panic PAssert
  else
    let b := bgboard s in
    board_t <- view_as [4; 6; 1]%nat (from_slice (pts b)) ;;
    player_t <- view_as [4; 6; 1]%nat (full 24 (player s)) ;;
    hit <- cat0 [full 12 (hit1 b); full 12 (hit2 b)] ;;
    hit_t <- view_as [4; 6; 1]%nat hit ;;
    col <- cat0 [full 12 (col1 b); full 12 (col2 b)] ;;
    col_t <- view_as [4; 6; 1]%nat col ;;
    rl <- cat0 [full 12 (fst (roll s)); full 12 (snd (roll s))] ;;
    roll_t <- view_as [4; 6; 1]%nat rl ;;
    second_t <- view_as [4; 6; 1]%nat (full 24 (if second s then 1 else 0)) ;;
    st <- stack 0 2 [board_t; player_t; hit_t; col_t; roll_t; second_t] ;;
    permute 0 [3; 2; 0; 1]%nat st.
