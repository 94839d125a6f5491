(** * AlphaLogSpec: where the statistics and the priors of a batched search come from. *)
From Verif Require Import Base F32 Tensor GameModel McModel McSpec AlphaModel AlphaSpec LogSpec.

(** policy [row] with everything but [codes] set to zero *)
Definition masked (codes : list Z) (row : list f32) : list f32 :=
  map (fun j => if existsb (Z.eqb (Z.of_nat j)) codes then nth j row f0 else f0) (seq 0 (length row)).
(** the share of code [c] in policy [row] restricted to [codes] *)
Definition share (tsum : list f32 -> f32) (codes : list Z) (row : list f32) (c : Z) : f32 :=
  fdiv (nth (Z.to_nat c) row f0) (tsum (masked codes row)).
(** the same with the restriction made by multiplying with ones and zeros *)
Definition multiplied (codes : list Z) (row : list f32) : list f32 :=
  map (fun j => fmul (nth j row f0) (if existsb (Z.eqb (Z.of_nat j)) codes then f1 else f0)) (seq 0 (length row)).
Definition root_share (tsum : list f32 -> f32) (codes : list Z) (row : list f32) (c : Z) : f32 :=
  fdiv (fmul (nth (Z.to_nat c) row f0) f1) (tsum (multiplied codes row)).
(** policy [row] with noise *)
Definition noisy (eps : f32) (noise row : list f32) : list f32 :=
  map (fun xd => fadd (fmul (fsub f1 eps) (fst xd)) (fmul eps (snd xd))) (combine row noise).

Section Spec.
  Variable G : Game.
  Variable nt : net.
  Implicit Types (st : store G) (n : node G).

  (** the network, asked about the positions [ss], gave policy [row] and value [v] for the
      [k]-th of them, which is [s] *)
  Definition evaluated (ss : list (St G)) (k : nat) (s : St G) (row : list f32) (v : f32) : Prop :=
    exists x, batch ss = Ok x /\ nth_error ss k = Some s
      /\ nth_error (rows (net_policy nt x)) k = Some row /\ nth_error (data (net_value nt x)) k = Some v.

  (** a value reported to node [i]: the result of the finished game at [i] for the player on
      turn at the root, or what the network says about the position of [i] *)
  Definition origin (roots : list (St G)) st (i : nat) (v : f32) : Prop :=
    exists n, nth_error st i = Some n
    /\ ((exists g s w, owner roots st i g /\ nth_error roots g = Some s /\ g_winner G (n_state n) = Some w
           /\ v = f32_of_Z (score (g_player G s) (n_state n)))
        \/ (exists ss k row, evaluated ss k (n_state n) row v)).

  (** the prior of node [n], a child of node [p] with position [s] *)
  Definition prior_ok (tsum : list f32 -> f32) (eps : f32) (noise : list f32) (roots : list (St G))
      (p : nat) (s : St G) n : Prop :=
    exists a c vm codes row v, n_action n = Some a /\ g_valid G s = Ok vm /\ mmap (g_encode G s) vm = Ok codes
      /\ g_encode G s a = Ok c /\ In c codes
      /\ ((p < length roots)%nat /\ evaluated roots p s row v /\ n_policy n = root_share tsum codes (noisy eps noise row) c
          \/ (length roots <= p)%nat /\ (exists ss k, evaluated ss k s row v) /\ n_policy n = share tsum codes row c).
End Spec.
Arguments evaluated {G}. Arguments origin {G}. Arguments prior_ok {G}.
