(** * VisitSpec: what the visit distribution of a searched root should be. *)
From Verif Require Import Base F32 Tensor GameModel McModel McSpec AlphaModel AlphaSpec.

Section Spec.
  Variable G : Game.
  Implicit Types (st : store G) (n : node G).
  (** a probability: a number from 0 to 1 *)
  Definition prob01 (x : f32) : Prop := SFleb f0 x = true /\ SFleb x f1 = true.
  (** [m] is the move of a child of [n], [c] its code and [v] its visits *)
  Definition child_of st n (m : Mv G) (c : Z) (v : f32) : Prop :=
    exists i cn, In i (n_children n) /\ nth_error st i = Some cn /\ n_action cn = Some m
      /\ g_encode G (n_state n) m = Ok c /\ n_visits cn = v.
  (** [row] is the visit distribution of the node [n] with valid moves [vm] *)
  Record visit_row st n (vm : list (Mv G)) (row : list f32) : Prop := {
    vr_len : length row = asize G;
    vr_unit : forall x, In x row -> prob01 x;
    vr_some : exists x, In x row /\ x <> f0;
    (** [ks] are the visits by code: the row is [ks] divided by its sum, an integer below
        2^24 and hence exact in f32; each quotient is correctly rounded *)
    vr_share : exists ks, length ks = asize G /\ (forall k, In k ks -> 0 <= k) /\ 0 < zsum ks < 2 ^ 24
      /\ row = map (fun k => fdiv (f32_of_Z k) (f32_of_Z (zsum ks))) ks
      /\ (forall j, nth j row f0 = f0 <-> nth j ks 0 = 0)
      /\ forall m, In m vm -> exists c, 0 <= c < g_actions G /\ child_of st n m c (f32_of_Z (nth (Z.to_nat c) ks 0));
    (** nothing outside the codes of valid moves *)
    vr_off : forall j, nth j row f0 <> f0 -> exists m, In m vm /\ g_encode G (n_state n) m = Ok (Z.of_nat j)
        /\ g_decode G (n_state n) (Z.of_nat j) = Ok m
  }.
End Spec.
Arguments child_of {G}. Arguments visit_row {G}.
