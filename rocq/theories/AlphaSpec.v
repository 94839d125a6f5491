(** * AlphaSpec: what the network-guided search should maintain, independent of the code. *)
From Verif Require Import Base F32 Tensor GameModel McModel McSpec AlphaModel.

Section Spec.
  Variable G : Game.
  Implicit Types (st : store G) (n : node G).

  (** the store holds one search tree for each position of [roots], the roots coming first *)
  Record forest (roots : list (St G)) st : Prop := {
    fo_roots : forall i s, nth_error roots i = Some s ->
      exists n, nth_error st i = Some n /\ n_parent n = None /\ n_action n = None /\ n_state n = s;
    fo_idx : forall i n, nth_error st i = Some n -> n_idx n = i;
    fo_parent : forall i n, nth_error st i = Some n -> (length roots <= i)%nat ->
      exists p pn a vm r r', n_parent n = Some p /\ (p < i)%nat /\ nth_error st p = Some pn
        /\ In i (n_children pn)
        /\ n_action n = Some a /\ g_valid G (n_state pn) = Ok vm /\ In a vm
        /\ g_apply G (n_state pn) a r = Ok (n_state n, r');
    fo_children : forall i n c, nth_error st i = Some n -> In c (n_children n) ->
      exists cn, nth_error st c = Some cn /\ n_parent cn = Some i;
    fo_nodup : forall i n, nth_error st i = Some n -> NoDup (n_children n);
    (** a node is either untouched or has exactly one child for each valid move, in order *)
    fo_moves : forall i n, nth_error st i = Some n ->
      exists vm, g_valid G (n_state n) = Ok vm
        /\ ((n_children n = [] /\ n_exp n = vm)
            \/ (n_exp n = []
                /\ Forall2 (fun c a => exists cn, nth_error st c = Some cn /\ n_action cn = Some a) (n_children n) vm))
  }.

  (** [i] belongs to the tree of game [g] *)
  Definition owner (roots : list (St G)) st (i g : nat) : Prop := (g < length roots)%nat /\ on_path st i g.

  (** a network with the right output shapes: [n x actions] and [n x 1] for a batch of [n] *)
  Definition net_ok (nt : net) : Prop := forall x k sh, shape x = k :: sh ->
    shape (net_policy nt x) = [k; asize G] /\ length (data (net_policy nt x)) = (k * asize G)%nat
    /\ shape (net_value nt x) = [k; 1%nat] /\ length (data (net_value nt x)) = k.

  (** what the search needs from a game on the positions [I] *)
  Record alpha_game (I : St G -> Prop) : Prop := {
    ag_good : good G I;
    ag_player : forall s, I s -> -127 <= g_player G s <= 127;
    ag_tensor : exists sh, forall s, I s -> exists x, g_tensor G s = Ok x /\ shape x = 1%nat :: sh;
    ag_actions : (2 <= asize G)%nat;
    ag_nodup : forall s vm, I s -> g_valid G s = Ok vm -> NoDup vm;
    ag_codec : forall s vm m, I s -> g_valid G s = Ok vm -> In m vm ->
      exists c, g_encode G s m = Ok c /\ 0 <= c < g_actions G /\ g_decode G s c = Ok m
  }.

  (** visit counters hold integers up to 2^24 *)
  Definition counter (v : f32) : Prop := exists k, 0 <= k <= 2 ^ 24 /\ v = f32_of_Z k.
  Definition poscounter (v : f32) : Prop := exists k, 1 <= k <= 2 ^ 24 /\ v = f32_of_Z k.
End Spec.
Arguments forest {G}. Arguments owner {G}.
