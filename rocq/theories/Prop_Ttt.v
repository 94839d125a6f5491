(** * Prop_Ttt: property theorems for TicTacToe and the network inputs (C20-C25).
    Rules: TttSpec.v ([owns_line], [full_board], histories [tgame]). *)
From Verif Require Import Base BgModel BgSpec BgReach Tensor BgTensor TttModel TttSpec TttApi.
From Coq Require Import Sorting.Sorted.

(** C20: the input exists iff the dice are rolled; its shape, and what entry
    [0, channel, row, column] holds. *)
Theorem C20_shape_and_content : forall s, length (pts (bgboard s)) = 24%nat ->
  ((exists p, bg_as_tensor s = Panic p) <-> roll s = (0, 0))
  /\ (roll s <> (0, 0) -> exists t, bg_as_tensor s = Ok t /\ shape t = [1; 6; 4; 6]%nat /\ length (data t) = 144%nat
      /\ forall i j, (i < 4)%nat -> (j < 6)%nat ->
           get 0 t [0; 0; i; j]%nat = nth (6 * i + j) (pts (bgboard s)) 0
        /\ get 0 t [0; 1; i; j]%nat = player s
        /\ get 0 t [0; 2; i; j]%nat = (if (i <? 2)%nat then hit1 (bgboard s) else hit2 (bgboard s))
        /\ get 0 t [0; 3; i; j]%nat = (if (i <? 2)%nat then col1 (bgboard s) else col2 (bgboard s))
        /\ get 0 t [0; 4; i; j]%nat = (if (i <? 2)%nat then fst (roll s) else snd (roll s))
        /\ get 0 t [0; 5; i; j]%nat = (if second s then 1 else 0)).
Proof. exact C20_shape_and_content_lemma. Qed.
Print Assumptions C20_shape_and_content.

(** C20: equal inputs come from equal positions. *)
Theorem C20_faithful : forall s s' t, length (pts (bgboard s)) = 24%nat -> length (pts (bgboard s')) = 24%nat ->
  bg_as_tensor s = Ok t -> bg_as_tensor s' = Ok t ->
  bgboard s = bgboard s' /\ roll s = roll s' /\ player s = player s' /\ second s = second s'.
Proof. exact C20_faithful_lemma. Qed.
Print Assumptions C20_faithful.

(** the start position with dice (6, 1) has an input; before the first roll there is none *)
Example C20_case : (exists t, bg_as_tensor (mkBg initial_board (6, 1) (-1) false 0) = Ok t /\ get 0 t [0; 0; 3; 5]%nat = -2)
  /\ bg_as_tensor bg_new = Panic PAssert.
Proof. split; [eexists; split; [vm_compute; reflexivity|vm_compute; reflexivity]|vm_compute; reflexivity]. Qed.

(** C21: valid moves are exactly the empty cells, in increasing order. *)
Theorem C21_valid_moves : forall s, length (tboard s) = 9%nat ->
  StronglySorted Z.lt (ttt_valid_moves s)
  /\ forall m, In m (ttt_valid_moves s) <-> 0 <= m < 9 /\ cell (tboard s) m = 0.
Proof. exact C21_valid_moves_lemma. Qed.
Print Assumptions C21_valid_moves.

(** C21: a valid move never panics, marks its cell for the mover, leaves the others and
    the id alone, and passes the turn. *)
Theorem C21_apply_move : forall pr s m, length (tboard s) = 9%nat -> tplayer s = -1 \/ tplayer s = 1 -> In m (ttt_valid_moves s) ->
  exists s', ttt_apply_move pr s m = Ok s' /\ length (tboard s') = 9%nat
    /\ cell (tboard s') m = tplayer s
    /\ (forall i, 0 <= i < 9 -> i <> m -> cell (tboard s') i = cell (tboard s) i)
    /\ tplayer s' = - tplayer s /\ tid s' = tid s.
Proof. exact C21_apply_move_lemma. Qed.
Print Assumptions C21_apply_move.

Example C21_case : ttt_valid_moves (mkTtt 1 [-1; 0; 1; 0; -1; 0; 0; 1; 0] 0) = [1; 3; 5; 6; 8].
Proof. reflexivity. Qed.

(** C22: on every board on which not both players own a line. *)
Theorem C22_winner : forall s, length (tboard s) = 9%nat ->
  (forall p q, p <> 0 -> q <> 0 -> owns_line (tboard s) p -> owns_line (tboard s) q -> p = q) ->
  (forall p, p <> 0 -> (ttt_check_winner s = Some p <-> owns_line (tboard s) p))
  /\ (ttt_check_winner s = Some 0 <-> full_board (tboard s) /\ forall p, p <> 0 -> ~ owns_line (tboard s) p)
  /\ (ttt_check_winner s = None <-> ~ full_board (tboard s) /\ forall p, p <> 0 -> ~ owns_line (tboard s) p).
Proof. exact C22_winner_lemma. Qed.
Print Assumptions C22_winner.

(** C22: in a game that stops at a result not both players own a line, marks and player
    are as they should be, and a recorded winner is one of the two players. *)
Theorem C22_play : forall pr n s, tgame pr n s ->
  length (tboard s) = 9%nat /\ (tplayer s = -1 \/ tplayer s = 1)
  /\ Forall (fun x => x = -1 \/ x = 0 \/ x = 1) (tboard s)
  /\ (forall p q, p <> 0 -> q <> 0 -> owns_line (tboard s) p -> owns_line (tboard s) q -> p = q)
  /\ (forall w, ttt_check_winner s = Some w -> w = -1 \/ w = 0 \/ w = 1).
Proof. exact C22_play_lemma. Qed.
Print Assumptions C22_play.

(** a won game: 4, 0, 2, 1, 6 *)
Example C22_case : exists s, tgame Debug 5 s /\ ttt_check_winner s = Some (-1) /\ owns_line (tboard s) (-1).
Proof.
  exists (mkTtt 1 [1; 1; -1; 0; -1; 0; -1; 0; 0] 0). split.
  - eapply (tg_move Debug 4 (mkTtt (-1) [1; 1; -1; 0; -1; 0; 0; 0; 0] 0) 6); [|reflexivity|vm_compute; tauto|reflexivity].
    eapply (tg_move Debug 3 (mkTtt 1 [1; 0; -1; 0; -1; 0; 0; 0; 0] 0) 1); [|reflexivity|vm_compute; tauto|reflexivity].
    eapply (tg_move Debug 2 (mkTtt (-1) [1; 0; 0; 0; -1; 0; 0; 0; 0] 0) 2); [|reflexivity|vm_compute; tauto|reflexivity].
    eapply (tg_move Debug 1 (mkTtt 1 [0; 0; 0; 0; -1; 0; 0; 0; 0] 0) 0); [|reflexivity|vm_compute; tauto|reflexivity].
    eapply (tg_move Debug 0 ttt_new 4); [constructor|reflexivity|vm_compute; tauto|reflexivity].
  - split; [reflexivity|]. apply owns_combos. unfold combos. do 7 right. left. cbn. auto.
Qed.

(** C23: a position without result has a valid move (on any board at all); a game has made
    at most nine moves, and after nine there is a result. *)
Theorem C23_games_end : (forall s, ttt_check_winner s = None -> ttt_valid_moves s <> [])
  /\ forall pr n s, tgame pr n s -> (n <= 9)%nat /\ (n = 9%nat -> ttt_check_winner s <> None).
Proof. exact C23_games_end_lemma. Qed.
Print Assumptions C23_games_end.

(** a drawn game of nine moves *)
Example C23_case : exists s, tgame Release 9 s /\ ttt_check_winner s = Some 0.
Proof.
  assert (step : forall n b p m b', tgame Release n (mkTtt p b 0) -> ttt_check_winner (mkTtt p b 0) = None ->
    In m (ttt_valid_moves (mkTtt p b 0)) -> ttt_apply_move Release (mkTtt p b 0) m = Ok b' -> tgame Release (S n) b')
    by (intros; eapply tg_move; eauto).
  eexists. split.
  - eapply step with (m := 3); [eapply step with (m := 6); [eapply step with (m := 5); [eapply step with (m := 1);
      [eapply step with (m := 7); [eapply step with (m := 8); [eapply step with (m := 2); [eapply step with (m := 4);
      [eapply step with (m := 0); [apply tg_new|..]|..]|..]|..]|..]|..]|..]|..]|..];
      try reflexivity; vm_compute; tauto.
  - reflexivity.
Qed.

(** C24 *)
Theorem C24_codec : (forall s m, length (tboard s) = 9%nat -> In m (ttt_valid_moves s) ->
     0 <= ttt_encode m < ttt_ACTIONS /\ ttt_decode (ttt_encode m) = Ok m)
  /\ (forall s, length (tboard s) = 9%nat -> ~ In ttt_EMPTY (ttt_valid_moves s))
  /\ (forall c, 0 <= c < 2 ^ 32 -> ((exists p, ttt_decode c = Panic p) <-> 255 < c)).
Proof. exact C24_codec_lemma. Qed.
Print Assumptions C24_codec.

(** C25: the input exists for every board, and determines it. *)
Theorem C25_board_determined : forall s s', length (tboard s) = 9%nat -> length (tboard s') = 9%nat ->
  Forall (fun x => x = -1 \/ x = 0 \/ x = 1) (tboard s) -> Forall (fun x => x = -1 \/ x = 0 \/ x = 1) (tboard s') ->
  (exists t, ttt_as_tensor s = Ok t /\ shape t = [1; 3; 3; 3]%nat /\ length (data t) = 27%nat
    /\ forall r c, (r < 3)%nat -> (c < 3)%nat ->
         get 0 t [0; 0; r; c]%nat = (if cell (tboard s) (3 * Z.of_nat r + Z.of_nat c) =? -1 then 1 else 0)
      /\ get 0 t [0; 1; r; c]%nat = (if cell (tboard s) (3 * Z.of_nat r + Z.of_nat c) =? 0 then 1 else 0)
      /\ get 0 t [0; 2; r; c]%nat = (if cell (tboard s) (3 * Z.of_nat r + Z.of_nat c) =? 1 then 1 else 0))
  /\ (ttt_as_tensor s = ttt_as_tensor s' -> tboard s = tboard s').
Proof. exact C25_board_determined_lemma. Qed.
Print Assumptions C25_board_determined.

(** C25: the start position and the same position after [skip_turn] (both used by [play]
    as starting positions) differ in the player to move but not in the input. *)
Theorem C25_player_hidden : forall pr, exists s s', tgame pr 0 s /\ tgame pr 0 s' /\ ttt_check_winner s = None
  /\ s = ttt_new /\ ttt_skip_turn pr s = Ok s'
  /\ tplayer s <> tplayer s' /\ ttt_as_tensor s = ttt_as_tensor s'.
Proof. exact C25_player_hidden_lemma. Qed.
Print Assumptions C25_player_hidden.
