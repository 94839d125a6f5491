(** * SelfSpec: what self-play should record, independent of how the code keeps its books. *)
From Verif Require Import Base F32 RoundFacts Tensor GameModel McModel McSpec AlphaModel AlphaSpec VisitSpec SampleModel SelfModel.

Section Spec.
  Variable G : Game.
  Variable tpow : f32 -> f32.

  (** what self-play needs from a game on the positions [I] *)
  Record play_game (I : St G -> Prop) : Prop := {
    pg_alpha : alpha_game G I;
    pg_size : Z.of_nat (asize G) <= 2 ^ 40;
    pg_eqb : forall m, g_mv_eqb G m m = true;
    pg_eqb_eq : forall m m', g_mv_eqb G m m' = true -> m = m';
    pg_fresh : forall r, exists s r', fresh r = Ok (s, r') /\ I s /\ g_winner G s = None;
    (** skipping a turn does not end the game *)
    pg_skip : forall s r s' r', I s -> g_skip G s r = Ok (s', r') -> g_winner G s' = g_winner G s
  }.
  (** [pow] with a positive exponent maps the unit interval into itself and keeps zero *)
  Definition pow_ok : Prop := tpow f0 = f0 /\ forall x, unit32 x -> unit32 (tpow x).

  (** the score of a position of player [p] when [w] won ([w] = 0: draw) *)
  Definition score (w p : Z) : Z := if w =? p then 1 else if w =? - p then -1 else 0.
  Definition scored (w : Z) (h : list frag) : list frag := map (fun f => set_outcome (score w (fr_outcome f)) f) h.

  (** [ps] is the tempered visit distribution of a search from [s] *)
  Definition target (s : St G) (ps : list f32) : Prop :=
    exists (st : store G) n vm row, n_state n = s /\ g_valid G s = Ok vm /\ visit_row st n vm row /\ ps = map tpow row.
  (** in [s], with network input [x], a valid move of non-zero weight in [ps] was played *)
  Definition moved (s : St G) (ps : list f32) (x : tensor Z) (s' : St G) : Prop :=
    exists vm m c r r', target s ps /\ g_valid G s = Ok vm /\ In m vm /\ g_encode G s m = Ok c
      /\ nth (Z.to_nat c) ps f0 <> f0 /\ g_tensor G s = Ok x /\ g_apply G s m r = Ok (s', r').
  (** in [s] the turn was skipped: there is no valid move, or all weights vanish *)
  Definition skipped (s s' : St G) : Prop :=
    exists r r', g_skip G s r = Ok (s', r') /\ (g_valid G s = Ok [] \/ exists ps, target s ps /\ Forall (fun y => y = f0) ps).

  (** [history s0 h k s]: [k] rounds after the start [s0] an unfinished game stands at [s];
      [h] holds one fragment for each move played, marked with the player who moved *)
  Inductive history (s0 : St G) : list frag -> nat -> St G -> Prop :=
  | h_start : g_winner G s0 = None -> history s0 [] 0 s0
  | h_skip h k s s' : history s0 h k s -> skipped s s' -> g_winner G s' = None -> history s0 h (S k) s'
  | h_move h k s ps x s' : history s0 h k s -> moved s ps x s' -> g_winner G s' = None ->
      history s0 (h ++ [mkFrag (g_player G s) ps x]) (S k) s'.

  (** [block limit s0 b]: what the game started at [s0] adds to the samples *)
  Inductive block (limit : nat) (s0 : St G) : list frag -> Prop :=
  (** decided (or drawn) before the limit: every position once, with its score *)
  | b_decided h k s ps x s' w : history s0 h k s -> (k < limit)%nat -> moved s ps x s' -> g_winner G s' = Some w ->
      block limit s0 (scored w (h ++ [mkFrag (g_player G s) ps x]))
  (** stopped by the limit: every position once, scored 0; one more round was played and ignored *)
  | b_stopped h s s' : history s0 h limit s -> (skipped s s' \/ exists ps x, moved s ps x s' /\ g_winner G s' = None) ->
      block limit s0 (map (set_outcome 0) h)
  (** stopped by the limit and decided in the same round: positions twice, with different scores *)
  | b_both h s ps x s' w : history s0 h limit s -> moved s ps x s' -> g_winner G s' = Some w ->
      block limit s0 (map (set_outcome 0) h ++ scored w (h ++ [mkFrag (g_player G s) ps x])).

  (** [seq_history s0 h s]: sequential self-play went from [s0] to [s]; [h] holds one fragment
      for each move, marked with the player who moved *)
  Inductive seq_history (s0 : St G) : list frag -> St G -> Prop :=
  | q_start : seq_history s0 [] s0
  | q_skip h s s' r r' : seq_history s0 h s -> g_skip G s r = Ok (s', r') -> seq_history s0 h s'
  | q_move h s m ps x s' r r' : seq_history s0 h s -> g_tensor G s = Ok x -> g_apply G s m r = Ok (s', r') ->
      seq_history s0 (h ++ [mkFrag (g_player G s) ps x]) s'.
End Spec.
Arguments play_game {G}. Arguments target {G}. Arguments moved {G}. Arguments skipped {G}. Arguments history {G}. Arguments block {G}. Arguments seq_history {G}.
