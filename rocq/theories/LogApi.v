(** * LogApi: proofs re-exported by Prop_Log.v. *)
From Verif Require Import Base BaseFacts F32 F32Facts GameModel McModel McSpec AlphaModel AlphaSpec SelectSpec LogSpec AlphaLogSpec
  McProof McProof2 McApi AlphaProof LogProof SelectProof AlphaLog.
From Coq Require Import Arith Permutation.
Require Import ZifyBool ZifyNat.

Lemma max_from_nan (A : Type) (f : A -> f32) l : forall b, (forall x, In x l -> f x = S754_nan) ->
  max_by_from (fun a b => fcmp (f a) (f b)) b l = last l b.
Proof.
  induction l as [|x l IH]; intros b H; [reflexivity|]. cbn [max_by_from]. rewrite IH by (intros y Hy; apply H; right; exact Hy).
  assert (Hx : f x = S754_nan) by (apply H; left; reflexivity). unfold fcmp at 1. rewrite Hx.
  replace (SFcompare (f b) S754_nan) with (@None comparison) by (destruct (f b) as [?|[]| |[] ? ?]; reflexivity).
  destruct l as [|y l]; [reflexivity|]. cbn [last]. clear. revert y. induction l as [|z l IH]; intros y; [reflexivity|]. cbn [last] in *. apply IH.
Qed.
Lemma best_by_nan G (f : node G -> f32) ch x : (forall m, In m ch -> f m = S754_nan) ->
  best_by (fun m => Ok (f m)) (ch ++ [x]) = Ok (Some x) \/ f x <> S754_nan.
Proof.
  intros H. destruct (f x) eqn:Ex; try (right; discriminate). left. rewrite best_by_pure. f_equal. destruct ch as [|m ch]; [reflexivity|].
  cbn [app map max_by option_map]. f_equal. rewrite (max_from_nan _ (fun p : node G * f32 => snd p)).
  - rewrite map_app. cbn [map]. rewrite last_last. reflexivity.
  - intros y Hy. rewrite map_app in Hy. apply in_app_or in Hy. destruct Hy as [Hy|[<-|[]]]; [|exact Ex].
    apply in_map_iff in Hy. destruct Hy as (z & <- & Hz). apply H. right. exact Hz.
Qed.
Theorem C59_nan_lemma : forall (G : Game) roots (st : store G) c i n cs d, forest roots st -> nth_error st i = Some n -> n_children n = cs ++ [d] ->
  (forall e m, In e (n_children n) -> nth_error st e = Some m -> puct c n m = S754_nan) ->
  exists m, select_alpha i st c = Ok m /\ nth_error st d = Some m /\ n_idx m = d.
Proof.
  intros G roots st c i n cs d HT E Ec HN. destruct (forest_children G roots st i n HT E) as (ch & Ech & HF & Hch).
  unfold select_alpha, get_node. rewrite E. cbn [bind]. rewrite Ech. cbn [bind].
  rewrite (best_by_eq G (puct c n)).
  2: { intros m Hm. destruct (Hch m Hm) as (_ & _ & Hp). unfold alpha_ucb, get_node. rewrite Hp, E. reflexivity. }
  pose proof HF as HF0. rewrite Ec in HF. apply Forall2_app_inv_l in HF. destruct HF as (c1 & c2 & HF1 & HF2 & ->). inversion HF2 as [|d' x l l' Hx HF3]; subst. inversion HF3; subst.
  destruct (best_by_nan G (puct c n) c1 x) as [Eb|Hb].
  - intros m Hm. destruct (forall2_in_r _ _ _ _ _ _ HF1 Hm) as (e & He & Em). eapply HN; [|exact Em]. rewrite Ec. apply in_or_app. left. exact He.
  - rewrite Eb. cbn [bind]. exists x. split; [reflexivity|]. split; [exact Hx|]. eapply fo_idx; eassumption.
  - destruct Hb. eapply HN; [|exact Hx]. rewrite Ec. apply in_or_app. right. left. reflexivity.
Qed.

Theorem C60_priors_lemma : forall G I, alpha_game G I -> forall tsum dirichlet nt cfg order ss r st r', net_ok G nt ->
  (forall k a rr, length (fst (dirichlet k a rr)) = k) -> (forall s, In s ss -> I s) -> Permutation order (seq 0 (length ss)) ->
  alpha_mcts_parallel tsum dirichlet nt cfg order [] ss r = Ok (st, r') ->
  forall i n p pn, nth_error st i = Some n -> n_parent n = Some p -> nth_error st p = Some pn ->
    prior_ok nt tsum (dir_eps cfg) (fst (dirichlet (asize G) (dir_alpha cfg) r)) ss p (n_state pn) n.
Proof.
  intros G I HA tsum dirichlet nt cfg order ss r st r' HNet Hdir HI HP H.
  destruct (parallel_traced G I HA tsum dirichlet nt HNet Hdir cfg order ss r st r' HI HP H) as (log & HT). apply (tr_priors _ _ _ _ _ _ _ _ HT).
Qed.
Theorem C61_values_lemma : forall G I, alpha_game G I -> forall tsum dirichlet nt cfg order ss r st r', net_ok G nt ->
  (forall k a rr, length (fst (dirichlet k a rr)) = k) -> (forall s, In s ss -> I s) -> Permutation order (seq 0 (length ss)) ->
  alpha_mcts_parallel tsum dirichlet nt cfg order [] ss r = Ok (st, r') ->
  exists log, (forall i v, In (i, v) log -> origin nt ss st i v)
    /\ forall j n, nth_error st j = Some n -> exists vs, reported st j log vs
         /\ n_visits n = total (if (j <? length ss)%nat then f1 else f0) (map (fun _ => f1) vs) /\ n_value n = total f0 vs.
Proof.
  intros G I HA tsum dirichlet nt cfg order ss r st r' HNet Hdir HI HP H.
  destruct (parallel_traced G I HA tsum dirichlet nt HNet Hdir cfg order ss r st r' HI HP H) as (log & HT). exists log.
  split; [apply (tr_origin _ _ _ _ _ _ _ _ HT)|]. apply (tr_acc _ _ _ _ _ _ _ _ HT).
Qed.

Theorem C62_blind_lemma : forall (G : Game) ln s pl cfg r k st0 st r', (pl = -1 \/ pl = 1) -> (0 < sim_limit cfg)%nat ->
  mcts_init (G := G) s = Ok st0 -> mcts_loop ln k pl cfg (st0, r) = Ok (st, r') -> Z.of_nat k <= 2 ^ 24 ->
  (forall n, In n st -> g_winner G (n_state n) = None) -> forall n, In n st -> n_value n = f0.
Proof.
  intros G ln s pl cfg r k st0 st r' Hpl Hlim Hi H Hk HU n Hn.
  destruct (C62_values_lemma G ln s pl cfg r k st0 st r' Hpl Hlim Hi H Hk) as (log & _ & _ & _ & _ & Hval).
  apply In_nth_error in Hn. destruct Hn as [j E]. destruct (Hval j n E) as (sub & _ & _ & ->).
  replace (zsum (map (score_at pl st) sub)) with 0; [reflexivity|]. clear -HU. induction sub as [|x sub IH]; [reflexivity|]. cbn [map zsum fold_right].
  fold (zsum (map (score_at pl st) sub)). rewrite <- IH. unfold score_at. destruct (nth_error st x) as [m|] eqn:E; [|reflexivity].
  unfold score. rewrite (HU m (nth_error_In _ _ E)). reflexivity.
Qed.
