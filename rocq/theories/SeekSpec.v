(** * SeekSpec: the worth of a position, independent of any search. *)
From Verif Require Export Base F32 Tensor GameModel McModel AlphaModel AlphaSpec.

(** the value of a position for the player to move if both sides play perfectly: 1 a win, 0 a draw,
    -1 a loss; for games without chance, [n] moves deep *)
Fixpoint worth (G : Game) (n : nat) (s : St G) : Z :=
  match g_winner G s with
  | Some w => w * g_player G s
  | None =>
    match n with
    | O => 0
    | S n' =>
      match g_valid G s with
      | Ok vm => fold_right Z.max (-1) (map (fun m => match g_apply G s m (mkRng (fun _ => 0%N) 0) with Ok (s', _) => - worth G n' s' | Panic _ => -1 end) vm)
      | Panic _ => 0
      end
    end
  end.
Definition ttt_worth (s : ttt) : Z := worth (ttt_game Release) 9 s.

(** positions of Tic-Tac-Toe games begun by player -1, as in self-play *)
Inductive played : ttt -> Prop :=
| pl_new : played ttt_new
| pl_move s m s' : played s -> ttt_check_winner s = None -> In m (ttt_valid_moves s) -> ttt_apply_move Release s m = Ok s' -> played s'.
(** a network that has learnt the game: its value is the worth of the position for the player to
    move, which is what it is trained towards (C45) *)
Definition exact_net (nt : net) : Prop := forall s x, played s -> ttt_as_tensor s = Ok x -> net_value nt x = mkT [1%nat; 1%nat] [f32_of_Z (ttt_worth s)].
(** [m] was visited more often than any other move *)
Definition most_visited {G} (st : store G) (root : nat) (m : Mv G) : Prop := exists n i c, nth_error st root = Some n /\ In i (n_children n) /\ nth_error st i = Some c /\ n_action c = Some m
  /\ forall j d, In j (n_children n) -> nth_error st j = Some d -> j <> i -> SFltb (n_visits d) (n_visits c) = true.
(** move [m] wins at once for player [pl], whatever the dice *)
Definition wins (G : Game) (pl : Z) (s : St G) (m : Mv G) : Prop := forall q s' q', g_apply G s m q = Ok (s', q') -> g_winner G s' = Some pl.
(** the exploration constant times the logarithm of a number of visits up to [k] lies between 0 and [b] *)
Definition bonus_within (ln : f32 -> f32) (c : f32) (k b : Z) : Prop :=
  forall v, 1 <= v <= k -> SFleb f0 (fmul c (ln (f32_of_Z v))) = true /\ SFleb (fmul c (ln (f32_of_Z v))) (f32_of_Z b) = true.
