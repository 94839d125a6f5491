(** * GameModel: the trait [LearnableGame] (src/base.rs:8-51) as a record, and its two
    implementations.  Omitted members: [name], [to_pretty_str], [N_INPUT_CHANNELS],
    [CONV_OUTPUT_SIZE], [N_FILTERS], [N_RES_BLOCKS] (modelled where they are used). *)
From Verif Require Export Base Tensor BgModel EncModel BgTensor TttModel.

Record Game := mkGame {
  St : Type; Mv : Type;
  g_pr : profile;                                   (** build profile of the whole program *)
  g_det : bool;                                     (** IS_DETERMINISTIC *)
  g_actions : Z;                                    (** ACTION_SPACE_SIZE *)
  g_new : St;
  g_empty : Mv;                                     (** EMPTY_MOVE *)
  g_mv_eqb : Mv -> Mv -> bool;                      (** PartialEq of Move *)
  g_valid : St -> res (list Mv);
  g_apply : St -> Mv -> rng -> res (St * rng);
  g_roll : St -> rng -> res (St * rng);
  g_skip : St -> rng -> res (St * rng);
  g_player : St -> Z;
  g_winner : St -> option Z;
  g_tensor : St -> res (tensor Z);
  g_encode : St -> Mv -> res Z;
  g_decode : St -> Z -> res Mv;
  g_id : St -> Z;
  g_set_id : Z -> St -> St
}.

(** [Vec<(i8, i8)>::eq] *)
Fixpoint actions_eqb (a b : actions) : bool :=
  match a, b with
  | [], [] => true
  | (x, y) :: a', (u, v) :: b' => (x =? u) && (y =? v) && actions_eqb a' b'
  | _, _ => false
  end.

(** BL:69-260 (impl LearnableGame for Backgammon) *)
Definition bg_game (pr : profile) : Game := mkGame
  bg actions pr false 1352 bg_new [] actions_eqb
  (bg_valid_moves pr) (bg_apply_move pr) (fun s r => Ok (bg_roll_die s r)) (bg_skip_turn pr)
  player bg_check_winner bg_as_tensor (encode_trait pr) (decode_trait pr)
  bgid (fun k s => mkBg (bgboard s) (roll s) (player s) (second s) k).

(** TT:15-109; [roll_die] is the trait's default, which panics (base.rs:32-37) *)
Definition ttt_game (pr : profile) : Game := mkGame
  ttt Z pr true ttt_ACTIONS ttt_new ttt_EMPTY Z.eqb
  (fun s => Ok (ttt_valid_moves s))
  (fun s m r => s' <- ttt_apply_move pr s m ;; Ok (s', r))
  (fun _ _ => Panic PExplicit)
  (fun s r => s' <- ttt_skip_turn pr s ;; Ok (s', r))
  tplayer ttt_check_winner ttt_as_tensor (fun _ m => Ok (ttt_encode m)) (fun _ c => ttt_decode c)
  tid (fun k s => mkTtt (tplayer s) (tboard s) k).
