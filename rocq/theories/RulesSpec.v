(** * RulesSpec: what the other parts of the program may expect of a game. *)
From Verif Require Export GameModel.
Local Open Scope Z_scope.

Record lawful (G : Game) (I : St G -> Prop) : Prop := {
  (** equality of moves *)
  lf_eqb : forall m m', g_mv_eqb G m m' = true <-> m = m';
  (** a fresh game *)
  lf_new : g_player G (g_new G) = -1 /\ g_winner G (g_new G) = None /\ g_id G (g_new G) = 0;
  (** codes of valid moves lie in the action space and can be decoded *)
  lf_codes : forall s ms m, I s -> g_valid G s = Ok ms -> In m ms -> exists c, g_encode G s m = Ok c /\ 0 <= c < g_actions G /\ g_decode G s c = Ok m;
  (** ... which is no larger than needed *)
  lf_space : exists s ms m, I s /\ g_valid G s = Ok ms /\ (m = g_empty G \/ In m ms) /\ g_encode G s m = Ok (g_actions G - 1);
  lf_empty : forall s ms, I s -> g_valid G s = Ok ms -> ~ In (g_empty G) ms;
  (** an id can be read back, and is otherwise ignored and kept *)
  lf_id : forall s k j, g_id G (g_set_id G k s) = k /\ g_set_id G (g_id G s) s = s /\ g_set_id G j (g_set_id G k s) = g_set_id G j s;
  lf_id_ignored : forall s k, g_valid G (g_set_id G k s) = g_valid G s /\ g_winner G (g_set_id G k s) = g_winner G s /\ g_player G (g_set_id G k s) = g_player G s
    /\ g_tensor G (g_set_id G k s) = g_tensor G s /\ (forall m, g_encode G (g_set_id G k s) m = g_encode G s m) /\ (forall c, g_decode G (g_set_id G k s) c = g_decode G s c)
    /\ (I s -> I (g_set_id G k s));
  lf_id_kept : forall s k r, let back x := '(s', r') <- x ;; Ok (g_set_id G k s', r') in
    (forall m, g_apply G (g_set_id G k s) m r = back (g_apply G s m r)) /\ g_skip G (g_set_id G k s) r = back (g_skip G s r) /\ g_roll G (g_set_id G k s) r = back (g_roll G s r);
  (** a deterministic game uses no randomness and has no dice *)
  lf_det : g_det G = true -> forall s r, (forall m s' r', g_apply G s m r = Ok (s', r') -> r' = r /\ forall q, g_apply G s m q = Ok (s', q))
    /\ (forall s' r', g_skip G s r = Ok (s', r') -> r' = r /\ forall q, g_skip G s q = Ok (s', q)) /\ g_roll G s r = Panic PExplicit;
  (** rolling changes neither the player to move nor the outcome, skipping passes the turn *)
  lf_roll : g_det G = false -> forall s r, exists s' r', g_roll G s r = Ok (s', r') /\ g_player G s' = g_player G s /\ g_winner G s' = g_winner G s /\ (I s -> I s');
  lf_skip : forall s r, I s -> exists s' r', g_skip G s r = Ok (s', r') /\ g_player G s' = - g_player G s /\ g_winner G s' = g_winner G s /\ I s'
}.
