(** * McSpec: what a search tree should look like, independent of how the code builds it. *)
From Verif Require Import Base F32 GameModel McModel.

Section Spec.
  Variable G : Game.
  Implicit Types (st : store G) (n : node G).

  (** [j] lies on the path from [i] to the root *)
  Inductive on_path st : nat -> nat -> Prop :=
  | path_here i n : nth_error st i = Some n -> on_path st i i
  | path_up i n p j : nth_error st i = Some n -> n_parent n = Some p -> on_path st p j -> on_path st i j.

  (** every parent link goes to a smaller index *)
  Definition parents_down st : Prop :=
    forall i n p, nth_error st i = Some n -> n_parent n = Some p -> (p < i)%nat.

  (** the store is the search tree of position [s0] *)
  Record tree (s0 : St G) st : Prop := {
    tree_root : exists n, nth_error st 0 = Some n /\ n_parent n = None /\ n_action n = None /\ n_state n = s0;
    tree_idx : forall i n, nth_error st i = Some n -> n_idx n = i;
    (** every other node: its parent comes earlier and lists it exactly once; its action is a
        valid move of the parent and its state a result of that move *)
    tree_parent : forall i n, nth_error st i = Some n -> (0 < i)%nat ->
      exists p pn a vm r r', n_parent n = Some p /\ (p < i)%nat /\ nth_error st p = Some pn
        /\ count_occ Nat.eq_dec (n_children pn) i = 1%nat
        /\ n_action n = Some a /\ g_valid G (n_state pn) = Ok vm /\ In a vm
        /\ g_apply G (n_state pn) a r = Ok (n_state n, r');
    (** children are nodes whose parent this is *)
    tree_children : forall i n c, nth_error st i = Some n -> In c (n_children n) ->
      exists cn, nth_error st c = Some cn /\ n_parent cn = Some i;
    (** tried and untried moves together are the valid moves *)
    tree_moves : forall i n, nth_error st i = Some n ->
      exists vm acts, g_valid G (n_state n) = Ok vm /\ vm = n_exp n ++ rev acts
        /\ Forall2 (fun c a => exists cn, nth_error st c = Some cn /\ n_action cn = Some a) (n_children n) acts;
    (** finished positions are leaves *)
    tree_leaf : forall i n, nth_error st i = Some n -> g_winner G (n_state n) <> None -> n_children n = []
  }.

  (** integer value of a visit counter *)
  Definition has_visits n (k : Z) : Prop := n_visits n = f32_of_Z k.
  Definition zsum (l : list Z) : Z := fold_right Z.add 0 l.
  (** visit counts [f], one per node, are consistent after [k] iterations *)
  Record visits_ok st (f : nat -> Z) (k : Z) : Prop := {
    vo_counts : forall i n, nth_error st i = Some n -> has_visits n (f i) /\ 0 <= f i <= k;
    vo_root : f 0%nat = k;
    vo_pos : forall i, (0 < i < length st)%nat -> 1 <= f i;
    vo_root_sum : forall n, nth_error st 0 = Some n -> k = zsum (map f (n_children n));
    vo_sum : forall i n, nth_error st i = Some n -> (0 < i)%nat -> g_winner G (n_state n) = None ->
      f i = 1 + zsum (map f (n_children n))
  }.

  (** A game whose operations do not panic on the states satisfying [I]. *)
  Record good (I : St G -> Prop) : Prop := {
    good_valid : forall s, I s -> exists l, g_valid G s = Ok l;
    good_apply : forall s l m r, I s -> g_valid G s = Ok l -> In m l ->
      exists s' r', g_apply G s m r = Ok (s', r') /\ I s';
    good_skip : forall s r, I s -> exists s' r', g_skip G s r = Ok (s', r') /\ I s'
  }.
  (** in every unfinished position there is a move *)
  Definition live (I : St G -> Prop) : Prop := forall s, I s -> g_winner G s = None -> g_valid G s <> Ok [].
End Spec.
Arguments on_path {G}. Arguments parents_down {G}. Arguments tree {G}. Arguments has_visits {G}. Arguments visits_ok {G}.
