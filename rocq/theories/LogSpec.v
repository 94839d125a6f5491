(** * LogSpec: where the statistics of a search tree come from.
    Every evaluation of a position is reported to a node; the reports, in the order in which
    they are made, are a list of (node, value). *)
From Verif Require Import Base F32 GameModel McModel McSpec.

Section Spec.
  Variable G : Game.
  Implicit Types (st : store G) (n : node G).

  (** [sub] are the members of [log] that are node [j] or below it, in the same order *)
  Inductive beneath st (j : nat) : list nat -> list nat -> Prop :=
  | ben_nil : beneath st j [] []
  | ben_yes i log sub : on_path st i j -> beneath st j log sub -> beneath st j (i :: log) (i :: sub)
  | ben_no i log sub : ~ on_path st i j -> beneath st j log sub -> beneath st j (i :: log) sub.
  (** [vs] are the values reported to node [j] or below it, in order *)
  Inductive reported st (j : nat) : list (nat * f32) -> list f32 -> Prop :=
  | rep_nil : reported st j [] []
  | rep_yes i v log vs : on_path st i j -> reported st j log vs -> reported st j ((i, v) :: log) (v :: vs)
  | rep_no i v log vs : ~ on_path st i j -> reported st j log vs -> reported st j ((i, v) :: log) vs.

  (** adding [vs], from left to right *)
  Definition total (base : f32) (vs : list f32) : f32 := fold_left fadd vs base.
  (** the statistics of every node are the sums of the reports made at it or below it,
      starting from [base] visits *)
  Definition accounted (base : nat -> f32) st (log : list (nat * f32)) : Prop :=
    forall j n, nth_error st j = Some n -> exists vs, reported st j log vs
      /\ n_visits n = total (base j) (map (fun _ => f1) vs) /\ n_value n = total f0 vs.

  (** the result of a finished position for player [pl]; 0 for a draw and for an unfinished one *)
  Definition score (pl : Z) (s : St G) : Z :=
    match g_winner G s with Some w => if w =? pl then 1 else if w =? - pl then -1 else 0 | None => 0 end.
  Definition score_at (pl : Z) st (i : nat) : Z := match nth_error st i with Some n => score pl (n_state n) | None => 0 end.
End Spec.
Arguments beneath {G}. Arguments reported {G}. Arguments accounted {G}. Arguments score {G}. Arguments score_at {G}.
