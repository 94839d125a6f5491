(** * VersusStuck: two Backgammon matches with a random stream that is constantly 5 (every roll is
    6-6): between random agents it never ends, with an Mcts agent it panics. *)
From Coq Require Import Permutation.
From Verif Require Import Base BaseFacts F32 BgModel GameModel GameFacts McModel McSpec AlphaModel AlphaSpec SampleModel VersusModel VersusSpec VersusProof VersusApi Witness.

Definition nano0 (r : rng) : Z * rng := (0, r).
Definition random_player : vplayer := mkPlayer ARandom None.
Definition mcts_player : vplayer := mkPlayer AMcts None.

(** ** matches with a constant random stream: the games do not influence each other *)
Section Const.
  Variable G : Game.
  Variable v : N.
  Notation c n := (mkRng (fun _ => v) n).
  Variables (ln : f32 -> f32) (tsum : list f32 -> f32) (dirichlet : nat -> f32 -> rng -> list f32 * rng) (unif : f64 -> rng -> f64 * rng) (tpow : f32 -> f32)
    (cfg : mcfg) (order : nat -> bool -> nat -> list nat) (p1 p2 : vplayer).
  Hypothesis HP1 : pl_type p1 = ARandom \/ pl_type p1 = AMcts.
  Hypothesis HP2 : pl_type p2 = ARandom \/ pl_type p2 = AMcts.
  Notation round := (vs_round ln tsum dirichlet unif tpow cfg hash0 order p1 p2).
  Definition act (p : vplayer) (s : St G) (r : rng) : res (Mv G * rng) :=
    match pl_type p with AMcts => mct_search ln s (g_player G s) cfg r | _ => random_action s r end.
  Definition on_move (s : St G) : vplayer := if g_player G s =? -1 then p1 else p2.
  (** the action [m] in [s] leads to [Q'] *)
  Definition good (Q' : St G -> Prop) (count : Z) (m : Mv G) (s : St G) : Prop :=
    forall n, exists s1 n', Q' s1 /\ g_id G s1 = g_id G s
      /\ (if g_mv_eqb G m (g_empty G) then g_skip G s (c n) = Ok (s1, c n') else g_apply G s m (c n) = Ok (s1, c n') /\ g_winner G s1 = None /\ count < 400).

  Lemma each_const (f : St G -> rng -> res (Mv G * rng)) (P : Mv G -> St G -> Prop) : forall l n ms r,
    (forall s n m r, In s l -> f s (c n) = Ok (m, r) -> (exists n', r = c n') /\ P m s) -> each f l (c n) = Ok (ms, r) ->
    (exists n', r = c n') /\ length ms = length l /\ forall m s, In (m, s) (combine ms l) -> P m s /\ In s l.
  Proof.
    induction l as [|s l IH]; intros n ms r Hf H; cbn [each] in H.
    - injection H as <- <-. split; [exists n; reflexivity|]. split; [reflexivity|]. intros m s [].
    - destruct (f s (c n)) as [[m r1]|] eqn:E; [|discriminate H]. cbn [bind] in H. destruct (Hf s n m r1 (or_introl eq_refl) E) as [[n1 ->] HP].
      destruct (each f l (c n1)) as [[ms' r2]|] eqn:E2; [|discriminate H]. cbn [bind] in H. injection H as <- <-.
      destruct (IH n1 ms' r2 (fun s n m r Hin => Hf s n m r (or_intror Hin)) E2) as (Hr & HL & HA). split; [exact Hr|]. split; [cbn; rewrite HL; reflexivity|].
      intros m' s' [E'|Hin]; [injection E' as <- <-; split; [exact HP|left; reflexivity]|]. destruct (HA m' s' Hin). split; [assumption|right; assumption].
  Qed.
  Lemma actions_const p ord P l n ms r : pl_type p = ARandom \/ pl_type p = AMcts ->
    (forall s n m r, In s l -> act p s (c n) = Ok (m, r) -> (exists n', r = c n') /\ P m s) ->
    get_actions_for_player ln tsum dirichlet unif tpow cfg ord p l (c n) = Ok (ms, r) ->
    (exists n', r = c n') /\ length ms = length l /\ forall m s, In (m, s) (combine ms l) -> P m s /\ In s l.
  Proof.
    intros Hp HA H. destruct l as [|s0 l0].
    - injection H as <- <-. split; [exists n; reflexivity|]. split; [reflexivity|]. intros m s [].
    - unfold get_actions_for_player in H. unfold act in HA. destruct Hp as [Ep|Ep]; rewrite Ep in *; refine (each_const _ P _ _ _ _ _ H); exact HA.
  Qed.

  Lemma hget_set_other (A : Type) k k' (x : A) l : k' <> k -> hget k' (hset k x l) = hget k' l.
  Proof.
    intros Hne. induction l as [|[k0 a] l IH]; [reflexivity|]. cbn [hset hget]. destruct (k0 =? k) eqn:E.
    - apply Z.eqb_eq in E. subst k0. cbn [hget]. replace (k =? k') with false by (symmetry; apply Z.eqb_neq; congruence). reflexivity.
    - cbn [hget]. rewrite IH. reflexivity.
  Qed.
  Notation entries l Q := (forall e, In e l -> g_id G (fst (snd e)) = fst e /\ Q (fst (snd e))).
  Lemma hset_in (A : Type) k (x : A) l e : NoDup (map fst l) -> In e (hset k x l) -> e = (k, x) \/ (In e l /\ fst e <> k).
  Proof.
    induction l as [|[k0 a] l IH]; intros HN Hin; [destruct Hin|]. cbn [map fst] in HN. inversion HN as [|? ? Hx HN']; subst. cbn [hset] in Hin. destruct (k0 =? k) eqn:E.
    - apply Z.eqb_eq in E. subst k0. destruct Hin as [<-|Hin]; [left; reflexivity|]. right. split; [right; exact Hin|]. intros <-. apply Hx, in_map, Hin.
    - apply Z.eqb_neq in E. destruct Hin as [<-|Hin]; [right; split; [left; reflexivity|exact E]|]. destruct (IH HN' Hin) as [->|[H1 H2]]; [left; reflexivity|right; split; [right; exact H1|exact H2]].
  Qed.
  Lemma steps_const Q' t1 t2 count : forall l (a a' : vacc G) n, NoDup (map fst (v_games a)) -> v_rng a = c n -> NoDup (map (fun e => g_id G (snd e)) l) ->
    (forall m s, In (m, s) l -> good Q' count m s /\ exists g, hget (g_id G s) (v_games a) = Some (s, g)) ->
    (forall e, In e (v_games a) -> In (fst e) (map (fun e => g_id G (snd e)) l) \/ (g_id G (fst (snd e)) = fst e /\ Q' (fst (snd e)))) ->
    mfold (vs_step t1 t2 count) l a = Ok a' ->
    map fst (v_games a') = map fst (v_games a) /\ (exists n', v_rng a' = c n') /\ v_rem a' = v_rem a /\ entries (v_games a') Q'.
  Proof.
    induction l as [|[m s] l IH]; intros a a' n HN Hr HL Hl He H; cbn [mfold] in H.
    - injection H as <-. split; [reflexivity|]. split; [exists n; exact Hr|]. split; [reflexivity|]. intros e Hin. destruct (He e Hin) as [[]|Hq]. exact Hq.
    - destruct (vs_step t1 t2 count a (m, s)) as [b|] eqn:Es; [|discriminate H]. cbn [bind] in H.
      destruct (Hl m s (or_introl eq_refl)) as [Hg (g & Hget)]. destruct (Hg n) as (s1 & n1 & HQ & Hid & Hst). unfold vs_step in Es. rewrite Hget, Hr in Es. cbn [unwrap bind] in Es.
      cbn [map snd] in HL. inversion HL as [|? ? Hni HL']; subst.
      assert (Hb : v_games b = hset (g_id G s) (s1, g) (v_games a) /\ v_rng b = c n1 /\ v_rem b = v_rem a).
      { destruct (g_mv_eqb G m (g_empty G)).
        - rewrite Hst in Es. cbn [bind] in Es. injection Es as <-. repeat split.
        - destruct Hst as (Ha & Hw & Hc). destruct (g_valid G s) as [vm|]; [|discriminate Es]. cbn [bind] in Es. destruct (existsb _ vm); [|discriminate Es]. rewrite Ha in Es. cbn [bind] in Es. rewrite Hw in Es.
          unfold round_limit in Es. replace (400 <=? count) with false in Es by (symmetry; apply Z.leb_gt; lia). injection Es as <-. repeat split. }
      destruct Hb as (Hb1 & Hb2 & Hb3).
      destruct (IH b a' n1) as (H1 & H2 & H3 & H4).
      + rewrite Hb1, hset_fst. exact HN.
      + exact Hb2.
      + exact HL'.
      + intros m' s' Hin. destruct (Hl m' s' (or_intror Hin)) as [Hg' (g' & Hget')]. split; [exact Hg'|]. exists g'. rewrite Hb1, hget_set_other; [exact Hget'|].
        intros E. apply Hni. rewrite <- E. apply in_map_iff. exists (m', s'). auto.
      + rewrite Hb1. intros e Hin. destruct (hset_in _ _ _ _ _ HN Hin) as [->|[Hin' Hne]]; [right; cbn [fst snd]; split; [exact Hid|exact HQ]|].
        destruct (He e Hin') as [[E|Ht]|Hq]; [exfalso; apply Hne; symmetry; exact E|left; exact Ht|right; exact Hq].
      + exact H.
      + split; [rewrite H1, Hb1, hset_fst; reflexivity|]. split; [exact H2|]. split; [rewrite H3; exact Hb3|exact H4].
  Qed.
  Lemma hget_entry (l : list (Z * (St G * vgame G))) k v0 : NoDup (map fst l) -> In (k, v0) l -> hget k l = Some v0.
  Proof. apply hget_in. Qed.
  Lemma combine_ids (A : Type) (ms : list A) (l : list (St G)) : length ms = length l -> map (fun e => g_id G (snd e)) (combine ms l) = map (g_id G) l.
  Proof.
    revert l. induction ms as [|m ms IH]; intros [|s l] H; try discriminate H; [reflexivity|]. cbn. rewrite IH; [reflexivity|]. cbn in H. lia.
  Qed.
  (** a round moves every game from [Q] to [Q'] *)
  Lemma round_const Q Q' j (a a' : vstate G) n : NoDup (map fst (s_games a)) -> s_rng a = c n -> entries (s_games a) Q ->
    (forall count, i32 (g_pr G) (s_count a + 1) = Ok count -> forall s n m r, Q s -> act (on_move s) s (c n) = Ok (m, r) -> (exists n', r = c n') /\ good Q' count m s) ->
    round j a = Ok a' ->
    map fst (s_games a') = map fst (s_games a) /\ (exists n', s_rng a' = c n') /\ entries (s_games a') Q' /\ i32 (g_pr G) (s_count a + 1) = Ok (s_count a').
  Proof.
    intros HN Hr HE HA. unfold vs_round, hash0. cbv zeta. rewrite Hr. set (states := map _ (s_games a)). set (g1 := filter _ states). set (g2 := filter (fun s => negb _) states). intros H.
    destruct (get_actions_for_player _ _ _ _ _ _ (order j true) p1 g1 (c n)) as [[a1 r1]|] eqn:E1; [|discriminate H]. cbn [bind] in H.
    destruct (get_actions_for_player _ _ _ _ _ _ (order j false) p2 g2 r1) as [[a2 r2]|] eqn:E2; [|discriminate H]. cbn [bind] in H.
    destruct (i32 _ _) as [count|] eqn:Ec; [|discriminate H]. cbn [bind] in H. specialize (HA count eq_refl).
    assert (HS : forall s, In s states -> Q s /\ exists g, In (g_id G s, (s, g)) (s_games a)).
    { intros s Hs. apply in_map_iff in Hs. destruct Hs as ([k [s' g]] & <- & He). destruct (HE _ He) as [Hid HQ]. cbn [fst snd] in *. split; [exact HQ|]. exists g. rewrite Hid. exact He. }
    destruct (actions_const p1 (order j true) (good Q' count) g1 n a1 r1 HP1) as ([n1 ->] & L1 & A1).
    { intros s n0 m r Hs Ha. apply filter_In in Hs. destruct Hs as [Hs Hp]. destruct (HS s Hs) as [HQ _]. apply (HA s n0 m r HQ). unfold on_move. rewrite Hp. exact Ha. }
    { exact E1. }
    destruct (actions_const p2 (order j false) (good Q' count) g2 n1 a2 r2 HP2) as ([n2 ->] & L2 & A2).
    { intros s n0 m r Hs Ha. apply filter_In in Hs. destruct Hs as [Hs Hp]. destruct (HS s Hs) as [HQ _]. apply (HA s n0 m r HQ). unfold on_move. apply negb_true_iff in Hp. rewrite Hp. exact Ha. }
    { exact E2. }
    assert (Hids : Permutation (map (fun e : Mv G * St G => g_id G (snd e)) (combine a1 g1 ++ combine a2 g2)) (map fst (s_games a))).
    { rewrite map_app, !combine_ids by assumption. rewrite <- map_app. replace (map fst (s_games a)) with (map (g_id G) states).
      - apply Permutation_map, filter_perm.
      - unfold states. rewrite map_map. apply map_ext_in. intros e He. apply HE, He. }
    assert (Hall : forall m s, In (m, s) (combine a1 g1 ++ combine a2 g2) -> good Q' count m s /\ In s states).
    { intros m s Hin. apply in_app_or in Hin. destruct Hin as [Hin|Hin]; [apply A1 in Hin|apply A2 in Hin]; destruct Hin as [Hg Hs]; apply filter_In in Hs; split; [exact Hg|apply Hs|exact Hg|apply Hs]. }
    match type of H with context [mfold (vs_step _ _ _) ?l ?b] => destruct (mfold (vs_step (pl_type p1) (pl_type p2) count) l b) as [b'|] eqn:Em; [|discriminate H];
      destruct (steps_const Q' (pl_type p1) (pl_type p2) count l b b' n2) as (S1 & [n3 S2] & S3 & S4) end.
    - exact HN.
    - reflexivity.
    - eapply Permutation_NoDup; [apply Permutation_sym, Hids|exact HN].
    - intros m s Hin. destruct (Hall m s Hin) as [Hg Hs]. split; [exact Hg|]. destruct (HS s Hs) as [_ [g Hin']]. exists g. apply hget_in; [exact HN|exact Hin'].
    - intros e Hin. left. eapply Permutation_in; [apply Permutation_sym, Hids|]. apply in_map, Hin.
    - exact Em.
    - cbn [bind] in H. rewrite S3 in H. cbn [v_rem mfold bind] in H. injection H as <-. cbn [s_games s_rng s_count]. split; [exact S1|]. split; [exists n3; exact S2|]. split; [exact S4|reflexivity].
  Qed.
End Const.

(** ** the games of the two matches *)
Notation c5 n := (mkRng (fun _ => 5%N) n).
Definition rng_stuck : rng := c5 0.
Definition posn (pts : list Z) (p : Z) (se : bool) (i : Z) : bg := mkBg (mkBoard pts 0 0 0 0) (6, 6) p se i.
(** player -1 begins (games 0 to 199): the positions before rounds 0, 1, ... *)
Definition path_a : list (Z -> bg) :=
  [posn [2; 0; 0; 0; 0; -5; 0; -3; 0; 0; 0; 5; -5; 0; 0; 0; 3; 0; 5; 0; 0; 0; 0; -2] (-1) false;
   posn [2; 0; 0; 0; 0; -5; 0; -3; 0; 0; 0; 5; -5; 0; 0; 0; 3; -2; 5; 0; 0; 0; 0; 0] (-1) true;
   posn [2; 0; 0; 0; 0; -5; -2; -3; 0; 0; 0; 5; -3; 0; 0; 0; 3; -2; 5; 0; 0; 0; 0; 0] 1 false;
   posn [2; 0; 0; 0; 0; -5; -2; -3; 0; 0; 0; 5; -3; 0; 0; 0; 1; -2; 5; 0; 0; 0; 2; 0] 1 true;
   posn [2; 0; 0; 0; 0; -5; -2; -3; 0; 0; 0; 5; -3; 0; 0; 0; 0; -2; 5; 0; 0; 0; 3; 0] (-1) false;
   posn [2; 0; 0; 0; 0; -5; -4; -3; 0; 0; 0; 5; -1; 0; 0; 0; 0; -2; 5; 0; 0; 0; 3; 0] (-1) true;
   posn [2; -1; 0; 0; 0; -5; -5; -2; 0; 0; 0; 5; 0; 0; 0; 0; 0; -2; 5; 0; 0; 0; 3; 0] 1 false;
   posn [2; -1; 0; 0; 0; -5; -5; -2; 0; 0; 0; 5; 0; 0; 0; 0; 0; -2; 5; 0; 0; 0; 3; 0] (-1) false;
   posn [2; -3; 0; 0; 0; -5; -5; 0; 0; 0; 0; 5; 0; 0; 0; 0; 0; -2; 5; 0; 0; 0; 3; 0] (-1) true;
   posn [2; -3; 0; 0; 0; -5; -5; 0; 0; 0; 0; 5; 0; 0; 0; 0; 0; -2; 5; 0; 0; 0; 3; 0] 1 false].
(** player 1 begins (games 200 to 399) *)
Definition path_b : list (Z -> bg) :=
  [posn [2; 0; 0; 0; 0; -5; 0; -3; 0; 0; 0; 5; -5; 0; 0; 0; 3; 0; 5; 0; 0; 0; 0; -2] 1 false;
   posn [2; 0; 0; 0; 0; -5; 0; -3; 0; 0; 0; 5; -5; 0; 0; 0; 1; 0; 5; 0; 0; 0; 2; -2] 1 true;
   posn [0; 0; 0; 0; 0; -5; 2; -3; 0; 0; 0; 5; -5; 0; 0; 0; 1; 0; 5; 0; 0; 0; 2; -2] (-1) false;
   posn [0; 0; 0; 0; 0; -5; 2; -3; 0; 0; 0; 5; -5; 0; 0; 0; 1; -2; 5; 0; 0; 0; 2; 0] (-1) true;
   posn [0; -2; 0; 0; 0; -5; 2; -1; 0; 0; 0; 5; -5; 0; 0; 0; 1; -2; 5; 0; 0; 0; 2; 0] 1 false;
   posn [0; -2; 0; 0; 0; -5; 2; -1; 0; 0; 0; 5; -5; 0; 0; 0; 0; -2; 5; 0; 0; 0; 3; 0] 1 true;
   posn [0; -2; 0; 0; 0; -5; 2; -1; 0; 0; 0; 5; -5; 0; 0; 0; 0; -2; 5; 0; 0; 0; 3; 0] (-1) false;
   posn [0; -3; 0; 0; 0; -5; 2; 0; 0; 0; 0; 5; -5; 0; 0; 0; 0; -2; 5; 0; 0; 0; 3; 0] (-1) true;
   posn [0; -3; 0; 0; 0; -5; 2; 0; 0; 0; 0; 5; -5; 0; 0; 0; 0; -2; 5; 0; 0; 0; 3; 0] 1 false;
   posn [0; -3; 0; 0; 0; -5; 2; 0; 0; 0; 0; 5; -5; 0; 0; 0; 0; -2; 5; 0; 0; 0; 3; 0] (-1) false].
Definition at_round (j : nat) (s : bg) : Prop := exists k, nth_error (if bgid s <? 200 then path_a else path_b) j = Some k /\ s = k (bgid s).
Definition blocked (s : bg) : Prop :=
  exists b p i, s = posn b p false i /\ (p = 1 \/ p = -1)
    /\ (b = [2; -3; 0; 0; 0; -5; -5; 0; 0; 0; 0; 5; 0; 0; 0; 0; 0; -2; 5; 0; 0; 0; 3; 0] \/ b = [0; -3; 0; 0; 0; -5; 2; 0; 0; 0; 0; 5; -5; 0; 0; 0; 0; -2; 5; 0; 0; 0; 3; 0]).

Section Games.
  Variable pr : profile.
  Notation G := (bg_game pr).
  Notation answers p := (act G (fun x => x) (cfg0 1 1) p).
  (** one step along a path: the answer to [k] is [m], which leads to [k'] *)
  Definition leg (p : vplayer) (k k' : Z -> bg) (m : list (Z * Z)) : Prop := forall i n,
    (exists n', answers p (k i) (c5 n) = Ok (m, c5 n'))
    /\ (if g_mv_eqb G m (g_empty G) then exists n', bg_skip_turn pr (k i) (c5 n) = Ok (k' i, c5 n')
        else exists n', bg_apply_move pr (k i) m (c5 n) = Ok (k' i, c5 n') /\ g_winner G (k' i) = None).
  Definition on_path (i : Z) : list (Z -> bg) := if i <? 200 then path_a else path_b.
  Ltac leg := intros ? ?; split; [eexists; vm_compute; reflexivity|]; cbv [g_mv_eqb g_empty]; first [eexists; vm_compute; reflexivity|eexists; split; vm_compute; reflexivity].
  Lemma legs_random i j : (j < 9)%nat -> exists k k' m, nth_error (on_path i) j = Some k /\ nth_error (on_path i) (S j) = Some k' /\ leg random_player k k' m.
  Proof.
    intros Hj. unfold on_path, path_a, path_b. destruct (i <? 200); (do 9 (destruct j as [|j]; [do 3 eexists; split; [reflexivity|]; split; [reflexivity|]; destruct pr; leg|])); lia.
  Qed.
  Lemma legs_mcts i j : (j < 7)%nat -> exists k k' m, nth_error (on_path i) j = Some k /\ nth_error (on_path i) (S j) = Some k' /\ leg (if player (k i) =? -1 then mcts_player else random_player) k k' m.
  Proof.
    intros Hj. unfold on_path, path_a, path_b. destruct (i <? 200); (do 7 (destruct j as [|j]; [do 3 eexists; split; [reflexivity|]; split; [reflexivity|]; cbn [posn player Z.eqb Pos.eqb]; destruct pr; leg|])); lia.
  Qed.
  Lemma mcts_panics i n : 200 <= i -> forall k, nth_error (on_path i) 7 = Some k -> player (k i) = -1 /\ answers mcts_player (k i) (c5 n) = Panic PExplicit.
  Proof.
    intros Hi k. unfold on_path. replace (i <? 200) with false by (symmetry; apply Z.ltb_ge; lia). intros H. injection H as <-. split; [reflexivity|]. destruct pr; vm_compute; reflexivity.
  Qed.
  Lemma blocked_skips s n : blocked s -> answers random_player s (c5 n) = Ok ([], c5 n) /\ exists s' n', bg_skip_turn pr s (c5 n) = Ok (s', c5 n') /\ blocked s' /\ bgid s' = bgid s.
  Proof.
    intros (b & p & i & -> & Hp & Hb). split.
    - destruct Hp as [->| ->], Hb as [->| ->], pr; vm_compute; reflexivity.
    - exists (posn b (- p) false i). eexists. split; [destruct Hp as [->| ->], pr; vm_compute; reflexivity|]. split; [|reflexivity]. exists b, (- p), i. split; [reflexivity|]. split; [lia|exact Hb].
  Qed.
  Lemma first_const i n : exists n', first_state (G := G) i (c5 n) = Ok (nth 0 (on_path (Z.of_nat i)) (posn [] 0 false) (Z.of_nat i), c5 n').
  Proof.
    unfold first_state, on_path, num_games. change (400 / 2)%nat with 200%nat. destruct (200 <=? i)%nat eqn:E.
    - replace (Z.of_nat i <? 200) with false by (symmetry; apply Z.ltb_ge; apply Nat.leb_le in E; lia). eexists. destruct pr; reflexivity.
    - replace (Z.of_nat i <? 200) with true by (symmetry; apply Z.ltb_lt; apply Nat.leb_gt in E; lia). eexists. destruct pr; reflexivity.
  Qed.
  Lemma firsts_const t1 t2 : forall m i n l r, first_games (G := G) nano0 t1 t2 i m (c5 n) = Ok (l, r) ->
    map fst l = map Z.of_nat (seq i m) /\ (exists n', r = c5 n') /\ forall e, In e l -> bgid (fst (snd e)) = fst e /\ at_round 0 (fst (snd e)).
  Proof.
    induction m as [|m IH]; intros i n l r H; cbn [first_games] in H; [injection H as <- <-; split; [reflexivity|]; split; [exists n; reflexivity|intros e []]|].
    destruct (first_const i n) as [n1 E]. rewrite E in H. cbn [bind] in H. unfold nano0 at 1 in H.
    destruct (first_games nano0 t1 t2 (S i) m (c5 n1)) as [[l2 r3]|] eqn:E2; [|discriminate H]. cbn [bind] in H. injection H as <- <-. destruct (IH _ _ _ _ E2) as (H1 & H2 & H3).
    split; [cbn [map seq fst]; rewrite H1; reflexivity|]. split; [exact H2|]. intros e [<-|Hin]; [|apply H3, Hin]. cbn [fst snd].
    assert (Hid : bgid (nth 0 (on_path (Z.of_nat i)) (posn [] 0 false) (Z.of_nat i)) = Z.of_nat i) by (unfold on_path; destruct (Z.of_nat i <? 200); reflexivity).
    split; [exact Hid|]. unfold at_round. rewrite Hid. unfold on_path. destruct (Z.of_nat i <? 200); eexists; split; reflexivity.
  Qed.

  Variables (tsum : list f32 -> f32) (dirichlet : nat -> f32 -> rng -> list f32 * rng) (unif : f64 -> rng -> f64 * rng) (tpow : f32 -> f32) (order : nat -> bool -> nat -> list nat).
  Notation round p1 := (vs_round (G := G) (fun x => x) tsum dirichlet unif tpow (cfg0 1 1) hash0 order p1 random_player).
  Notation loop p1 := (vs_loop (G := G) (fun x => x) tsum dirichlet unif tpow (cfg0 1 1) hash0 order p1 random_player).
  (** all 400 games stand where the paths are before round [j] *)
  Definition on_paths (j : nat) (a : vstate G) : Prop :=
    map fst (s_games a) = map Z.of_nat (seq 0 400) /\ (exists n, s_rng a = c5 n) /\ s_count a = Z.of_nat j /\ forall e, In e (s_games a) -> g_id G (fst (snd e)) = fst e /\ at_round j (fst (snd e)).
  Lemma ids_nodup (l : list (Z * (St G * vgame G))) : map fst l = map Z.of_nat (seq 0 400) -> NoDup (map fst l).
  Proof. intros ->. apply FinFun.Injective_map_NoDup; [intros x y; apply Nat2Z.inj|apply seq_NoDup]. Qed.
  Lemma ids_some (l : list (Z * (St G * vgame G))) i : map fst l = map Z.of_nat (seq 0 400) -> (i < 400)%nat -> exists e, In e l /\ fst e = Z.of_nat i.
  Proof. intros H Hi. assert (Hin : In (Z.of_nat i) (map fst l)) by (rewrite H; apply in_map, in_seq; lia). apply in_map_iff in Hin. destruct Hin as (e & He & Hin). exists e. auto. Qed.
  Lemma start_paths p1 a : vs_start (G := G) nano0 p1 random_player rng_stuck = Ok a -> on_paths 0 a.
  Proof.
    unfold vs_start. destruct (first_games nano0 _ _ 0 num_games rng_stuck) as [[l r]|] eqn:E; [|discriminate]. cbn [bind]. intros H. injection H as <-. destruct (firsts_const _ _ _ _ _ _ _ E) as (H1 & H2 & H3).
    split; [exact H1|]. split; [exact H2|]. split; [reflexivity|exact H3].
  Qed.
  Lemma leg_good p j k k' m i count n m' r : leg p k k' m -> nth_error (on_path i) (S j) = Some k' -> bgid (k i) = i -> bgid (k' i) = i -> count < 400 ->
    answers p (k i) (c5 n) = Ok (m', r) -> (exists n', r = c5 n') /\ good G 5%N (at_round (S j)) count m' (k i).
  Proof.
    intros HL Hk' Hid Hid' Hc H. destruct (HL i n) as [[n1 E] _]. change (Mv G) with (list (Z * Z)) in *. rewrite E in H. injection H as <- <-. split; [exists n1; reflexivity|].
    intros n2. destruct (HL i n2) as [_ Hs]. assert (HA : at_round (S j) (k' i)) by (exists k'; rewrite Hid'; split; [exact Hk'|reflexivity]).
    destruct (g_mv_eqb G m (g_empty G)) eqn:Em.
    - destruct Hs as [n3 Hs]. exists (k' i), n3. split; [exact HA|]. split; [cbn; congruence|]. exact Hs.
    - destruct Hs as (n3 & Hs & Hw). exists (k' i), n3. split; [exact HA|]. split; [cbn; congruence|]. split; [exact Hs|]. split; [exact Hw|exact Hc].
  Qed.
  Lemma path_id i j k : nth_error (on_path i) j = Some k -> forall x, bgid (k x) = x.
  Proof.
    unfold on_path, path_a, path_b. intros H x. apply nth_error_In in H. destruct (i <? 200); cbn [In] in H; repeat (destruct H as [<-|H]; [reflexivity|]); destruct H.
  Qed.
  Lemma round_paths p1 j a a' : (p1 = random_player /\ (j < 9)%nat) \/ (p1 = mcts_player /\ (j < 7)%nat) -> on_paths j a -> round p1 j a = Ok a' -> on_paths (S j) a'.
  Proof.
    intros Hp (Hids & [n Hr] & Hc & HE) H.
    assert (Hj : (j < 9)%nat) by (destruct Hp as [[_ Hp]|[_ Hp]]; lia).
    assert (Hi32 : i32 (g_pr G) (s_count a + 1) = Ok (Z.of_nat (S j))).
    { rewrite Hc. unfold i32. replace ((- 2 ^ 31 <=? Z.of_nat j + 1) && (Z.of_nat j + 1 <? 2 ^ 31)) with true; [f_equal; lia|]. symmetry. apply andb_true_iff. split; [apply Z.leb_le|apply Z.ltb_lt]; lia. }
    destruct (round_const G 5%N (fun x => x) tsum dirichlet unif tpow (cfg0 1 1) order p1 random_player ltac:(destruct Hp as [[-> _]|[-> _]]; auto) ltac:(left; reflexivity) (at_round j) (at_round (S j)) j a a' n)
      as (H1 & H2 & H3 & H4).
    - apply ids_nodup, Hids.
    - exact Hr.
    - exact HE.
    - intros count Ec s n0 m r (k & Hk & Es) Ha. rewrite Hi32 in Ec. injection Ec as <-. change (if bgid s <? 200 then path_a else path_b) with (on_path (bgid s)) in Hk.
      assert (Hleg : exists k' m', nth_error (on_path (bgid s)) (S j) = Some k' /\ leg (on_move G p1 random_player s) k k' m').
      { destruct Hp as [[-> Hp]|[-> Hp]].
        - destruct (legs_random (bgid s) j Hp) as (k0 & k' & m' & E1 & E2 & HL). rewrite Hk in E1. injection E1 as <-. exists k', m'. split; [exact E2|]. unfold on_move. destruct (_ =? -1); exact HL.
        - destruct (legs_mcts (bgid s) j Hp) as (k0 & k' & m' & E1 & E2 & HL). rewrite Hk in E1. injection E1 as <-. exists k', m'. split; [exact E2|]. unfold on_move. change (g_player G s) with (player s). rewrite Es. exact HL. }
      destruct Hleg as (k' & m' & Hk' & HL). rewrite Es. rewrite Es in Ha at 2. eapply leg_good; [exact HL|exact Hk'|eapply path_id, Hk|eapply path_id, Hk'|lia|exact Ha].
    - exact H.
    - split; [rewrite H1; exact Hids|]. split; [exact H2|]. split; [rewrite Hi32 in H4; injection H4 as <-; reflexivity|exact H3].
  Qed.

  (** ** the match without end *)
  Definition all_blocked (a : vstate G) : Prop :=
    s_games a <> [] /\ NoDup (map fst (s_games a)) /\ (exists n, s_rng a = c5 n) /\ forall e, In e (s_games a) -> g_id G (fst (snd e)) = fst e /\ blocked (fst (snd e)).
  Lemma paths_blocked a : on_paths 9 a -> all_blocked a.
  Proof.
    intros (Hids & Hr & _ & HE). split; [intros E; rewrite E in Hids; discriminate Hids|]. split; [apply ids_nodup, Hids|]. split; [exact Hr|]. intros e He. destruct (HE e He) as [H1 (k & Hk & Es)]. split; [exact H1|].
    revert Hk Es. destruct (bgid (fst (snd e)) <? 200); cbn [nth_error path_a path_b]; intros H; injection H as <-; intros ->; do 3 eexists; (split; [reflexivity|]); (split; [|]); auto.
  Qed.
  Lemma round_blocked j a a' : all_blocked a -> round random_player j a = Ok a' -> all_blocked a'.
  Proof.
    intros (Hne & HN & [n Hr] & HE) H.
    destruct (round_const G 5%N (fun x => x) tsum dirichlet unif tpow (cfg0 1 1) order random_player random_player ltac:(left; reflexivity) ltac:(left; reflexivity) blocked blocked j a a' n HN Hr HE) as (H1 & H2 & H3 & _).
    - intros count _ s n0 m r Hb Ha. assert (Ha' : answers random_player s (c5 n0) = Ok (m, r)) by (unfold on_move in Ha; destruct (_ =? -1); exact Ha). destruct (blocked_skips s n0 Hb) as [E _]. rewrite E in Ha'. injection Ha' as <- <-. split; [exists n0; reflexivity|].
      intros n1. destruct (blocked_skips s n1 Hb) as [_ (s' & n' & E' & Hb' & Hid)]. exists s', n'. split; [exact Hb'|]. split; [exact Hid|]. exact E'.
    - exact H.
    - split; [intros E; rewrite E in H1; destruct (s_games a); [apply Hne; reflexivity|discriminate H1]|]. split; [rewrite H1; exact HN|]. split; [exact H2|exact H3].
  Qed.
  Lemma loop_endless : forall fuel j a b, ((j <= 9)%nat /\ on_paths j a) \/ all_blocked a -> loop random_player fuel j a <> Ok b.
  Proof.
    induction fuel as [|fuel IH]; intros j a b Ha.
    - assert (Hne : s_games a <> []) by (destruct Ha as [[_ (Hids & _)]|[Hne _]]; [intros E; rewrite E in Hids; discriminate Hids|exact Hne]). cbn [vs_loop]. destruct (s_games a); [contradiction|discriminate].
    - assert (Hne : s_games a <> []) by (destruct Ha as [[_ (Hids & _)]|[Hne _]]; [intros E; rewrite E in Hids; discriminate Hids|exact Hne]). cbn [vs_loop]. destruct (s_games a) as [|e l] eqn:Eg; [contradiction|].
      destruct (round random_player j a) as [a'|] eqn:E; [|discriminate]. cbn [bind]. apply IH. destruct Ha as [[Hj Ha]|Ha]; [|right; eapply round_blocked; eassumption].
      destruct (Nat.eq_dec j 9) as [->|Hn]; [right; eapply round_blocked; [apply paths_blocked, Ha|exact E]|left; split; [lia|eapply round_paths; [left; split; [reflexivity|lia]|exact Ha|exact E]]].
  Qed.
  Lemma never_ends fuel x : play (G := G) (fun x => x) tsum dirichlet unif tpow nano0 (cfg0 1 1) hash0 order random_player random_player fuel rng_stuck <> Ok x.
  Proof.
    unfold play. destruct (vs_start nano0 random_player random_player rng_stuck) as [a|] eqn:E; [|discriminate]. cbn [bind].
    destruct (loop random_player fuel 0 a) as [b|] eqn:El; [|discriminate]. exfalso. revert El. apply loop_endless. left. split; [lia|apply start_paths with random_player, E].
  Qed.

  (** ** the match with an Mcts agent: no more than seven rounds *)
  Lemma each_stops (f : St G -> rng -> res (Mv G * rng)) s : forall l r x, In s l -> (forall r, exists p, f s r = Panic p) -> each f l r <> Ok x.
  Proof.
    intros l. induction l as [|s0 l IH]; intros r x Hin Hf; [destruct Hin|]. cbn [each]. destruct Hin as [->|Hin]; [destruct (Hf r) as [p ->]; discriminate|].
    destruct (f s0 r) as [[m r1]|]; [|discriminate]. cbn [bind]. destruct (each f l r1) as [[ms r2]|] eqn:E; [|discriminate]. exfalso. exact (IH r1 _ Hin Hf E).
  Qed.
  Lemma each_stops_const (f : St G -> rng -> res (Mv G * rng)) s : forall l n x, In s l -> (forall n, exists p, f s (c5 n) = Panic p) -> (forall s n m r, f s (c5 n) = Ok (m, r) -> In s l -> exists n', r = c5 n') -> each f l (c5 n) <> Ok x.
  Proof.
    intros l. induction l as [|s0 l IH]; intros n x Hin Hf Hr; [destruct Hin|]. cbn [each]. destruct Hin as [->|Hin]; [destruct (Hf n) as [p ->]; discriminate|].
    destruct (f s0 (c5 n)) as [[m r1]|] eqn:E0; [|discriminate]. cbn [bind]. destruct (Hr s0 n m r1 E0 (or_introl eq_refl)) as [n1 ->].
    destruct (each f l (c5 n1)) as [[ms r2]|] eqn:E; [|discriminate]. exfalso. refine (IH n1 _ Hin Hf _ E). intros s1 n2 m1 r1 H1 H2. apply (Hr s1 n2 m1 r1 H1). right. exact H2.
  Qed.
  Lemma answer_a7 n i m r : i <? 200 = true -> forall k, nth_error (on_path i) 7 = Some k -> answers mcts_player (k i) (c5 n) = Ok (m, r) -> exists n', r = c5 n'.
  Proof.
    intros Hi k. unfold on_path. rewrite Hi. intros H. injection H as <-. intros H.
    assert (E : exists m n', answers mcts_player (posn [2; -1; 0; 0; 0; -5; -5; -2; 0; 0; 0; 5; 0; 0; 0; 0; 0; -2; 5; 0; 0; 0; 3; 0] (-1) false i) (c5 n) = Ok (m, c5 n')) by (do 2 eexists; destruct pr; vm_compute; reflexivity).
    destruct E as (m1 & n1 & E). change (Mv G) with (list (Z * Z)) in *. rewrite E in H. injection H as _ <-. exists n1. reflexivity.
  Qed.
  Lemma round_seven a x : on_paths 7 a -> round mcts_player 7 a <> Ok x.
  Proof.
    intros (Hids & [n Hr] & _ & HE) H. unfold vs_round, hash0 in H. cbv zeta in H. rewrite Hr in H. set (states := map _ (s_games a)) in H. set (g1 := filter _ states) in H.
    destruct (get_actions_for_player _ _ _ _ _ _ (order 7%nat true) mcts_player g1 (c5 n)) as [[a1 r1]|] eqn:E1; [|discriminate H]. clear H.
    destruct (ids_some (s_games a) 300 Hids ltac:(lia)) as ([i [s g]] & Hin & Hi). cbn [fst] in Hi. destruct (HE _ Hin) as [Hid (k & Hk & Es)]. cbn [fst snd] in *. change (g_id G s) with (bgid s) in Hid.
    change (if bgid s <? 200 then path_a else path_b) with (on_path (bgid s)) in Hk. destruct (mcts_panics (bgid s) 0 ltac:(lia) k Hk) as [Hpl _].
    assert (Hs : In s g1). { apply filter_In. split; [apply in_map_iff; exists (i, (s, g)); auto|]. change (g_player G s) with (player s). rewrite Es, Hpl. reflexivity. }
    unfold get_actions_for_player in E1. destruct g1 as [|s1 l1] eqn:Eg; [destruct Hs|]. rewrite <- Eg in *. cbn [pl_type mcts_player] in E1. revert E1. apply each_stops_const with s.
    - exact Hs.
    - intros n1. exists PExplicit. destruct (mcts_panics (bgid s) n1 ltac:(lia) k Hk) as [_ E]. rewrite <- Es in E. exact E.
    - intros s2 n2 m r E2 Hs2. rewrite Eg in Hs2. rewrite <- Eg in Hs2. apply filter_In in Hs2. destruct Hs2 as [Hs2 _]. apply in_map_iff in Hs2. destruct Hs2 as ([i2 [s2' g2]] & Ee & Hin2). cbn [fst snd] in Ee. subst s2'.
      destruct (HE _ Hin2) as [Hid2 (k2 & Hk2 & Es2)]. cbn [fst snd] in *. destruct (bgid s2 <? 200) eqn:Eb.
      + apply (answer_a7 n2 (bgid s2) m r Eb k2); [unfold on_path; rewrite Eb; exact Hk2|]. rewrite <- Es2. exact E2.
      + exfalso. apply Z.ltb_ge in Eb. assert (Hk3 : nth_error (on_path (bgid s2)) 7 = Some k2) by (unfold on_path; replace (bgid s2 <? 200) with false by (symmetry; apply Z.ltb_ge; lia); exact Hk2).
        destruct (mcts_panics (bgid s2) n2 Eb k2 Hk3) as [_ E]. rewrite <- Es2 in E. unfold act in E. cbn [pl_type mcts_player] in E. change (St G) with bg in *. rewrite E2 in E. discriminate E.
  Qed.
  Lemma rounds_stop : forall k j a x, (j <= 7)%nat -> (8 <= j + k)%nat -> on_paths j a -> mfold (fun a j => round mcts_player j a) (seq j k) a <> Ok x.
  Proof.
    induction k as [|k IH]; intros j a x Hj Hk Ha; [lia|]. cbn [seq mfold]. destruct (round mcts_player j a) as [a'|] eqn:E; [|discriminate]. cbn [bind].
    destruct (Nat.eq_dec j 7) as [->|Hn]; [exfalso; revert E; apply round_seven, Ha|]. apply IH; [lia|lia|]. eapply round_paths; [right; split; [reflexivity|lia]|exact Ha|exact E].
  Qed.
  Lemma loop_stops : forall fuel j a x, (j <= 7)%nat -> on_paths j a -> loop mcts_player fuel j a <> Ok x.
  Proof.
    induction fuel as [|fuel IH]; intros j a x Hj Ha; (assert (Hne : s_games a <> []) by (destruct Ha as (Hids & _); intros E; rewrite E in Hids; discriminate Hids)); cbn [vs_loop]; destruct (s_games a) as [|e l] eqn:Eg; try contradiction; [discriminate|].
    destruct (round mcts_player j a) as [a'|] eqn:E; [|discriminate]. cbn [bind]. destruct (Nat.eq_dec j 7) as [->|Hn]; [exfalso; revert E; apply round_seven, Ha|]. apply IH; [lia|]. eapply round_paths; [right; split; [reflexivity|lia]|exact Ha|exact E].
  Qed.
End Games.
