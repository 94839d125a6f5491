(** * SelectSpec: the descent of a search from a root to a leaf. *)
From Verif Require Import Base F32 GameModel McModel.

(** upper confidence bound: how often child [n] of [p] has won, plus a bonus for being rarely visited *)
Definition uct {G} (ln : f32 -> f32) (c : f32) (p n : node G) : f32 :=
  fadd (fdiv (n_value n) (n_visits n)) (fsqrt (fdiv (fmul c (ln (n_visits p))) (n_visits n))).
(** the same with a prior: mean value (0 if never visited), plus [c * (sqrt N / (n + 1)) * prior] *)
Definition puct {G} (c : f32) (p n : node G) : f32 :=
  fadd (if SFeqb (n_visits n) f0 then f0 else fdiv (n_value n) (n_visits n))
       (fmul (fmul c (fdiv (fsqrt (n_visits p)) (fadd (n_visits n) f1))) (n_policy n)).

Section Spec.
  Variable G : Game.
  Implicit Types (st : store G) (n p : node G).
  Variable score : node G -> node G -> f32.
  Variable stop : node G -> Prop.

  (** [c] is the last of the children [cs] of [p] with the largest score *)
  Definition last_best st p (cs : list nat) (c : nat) : Prop :=
    exists l1 l2 m, cs = l1 ++ c :: l2 /\ nth_error st c = Some m
      /\ (forall d, In d l1 -> exists x, nth_error st d = Some x /\ SFleb (score p x) (score p m) = true)
      /\ (forall d, In d l2 -> exists x, nth_error st d = Some x /\ SFltb (score p x) (score p m) = true).
  (** from [i] always to the best child until a node where the descent stops *)
  Inductive descent st : nat -> nat -> Prop :=
  | desc_stop i n : nth_error st i = Some n -> stop n -> descent st i i
  | desc_down i n c j : nth_error st i = Some n -> ~ stop n -> last_best st n (n_children n) c -> descent st c j -> descent st i j.
  (** every score of a child is a number *)
  Definition numbers st : Prop := forall i n c m, nth_error st i = Some n -> In c (n_children n) -> nth_error st c = Some m -> score n m <> S754_nan.
End Spec.
Arguments last_best {G}. Arguments descent {G}. Arguments numbers {G}.

(** where the two searches stop: at a node without children, and the plain one already at a node with untried moves *)
Definition open {G} (n : node G) : Prop := n_children n = [] \/ n_exp n <> [].
Definition childless {G} (n : node G) : Prop := n_children n = [].
