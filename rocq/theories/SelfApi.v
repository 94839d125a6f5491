(** * SelfApi: self-play of both games; termination, samples, sequential version (C44-C46). *)
From Coq Require Import Permutation.
From Verif Require Import SampleFacts Base BaseFacts F32 F32Facts RoundFacts Tensor TttModel TttSpec TttApi BgModel BgSpec BgReach BgTurn EncModel GameModel McModel McSpec McProof GameFacts
  AlphaModel AlphaSpec AlphaInst AlphaApi SampleModel SelfModel SelfSpec SelfProof.
Require Import ZifyBool ZifyNat.

(** ** both games can be played *)
Lemma actions_eqb_refl a : actions_eqb a a = true.
Proof. induction a as [|[x y] a IH]; [reflexivity|]. cbn. rewrite !Z.eqb_refl. exact IH. Qed.
Lemma actions_eqb_eq a : forall b, actions_eqb a b = true -> a = b.
Proof.
  induction a as [|[x y] a IH]; intros [|[u v] b] H; try discriminate; [reflexivity|]. cbn in H.
  apply andb_true_iff in H. destruct H as [H1 H2]. apply andb_true_iff in H1. destruct H1 as [Hx Hy].
  apply Z.eqb_eq in Hx, Hy. subst. f_equal. apply IH. exact H2.
Qed.

Lemma ttt_play pr : play_game (G := ttt_game pr) ttt_pos.
Proof.
  constructor.
  - apply ttt_alpha.
  - vm_compute. discriminate.
  - intros m. apply Z.eqb_refl.
  - intros m m' H. apply Z.eqb_eq. exact H.
  - intros r. exists ttt_new, r. split; [reflexivity|]. split; [split; [reflexivity|left; reflexivity]|reflexivity].
  - intros s r s' r' _. cbn [ttt_game g_skip g_winner]. unfold ttt_skip_turn. destruct (i8 pr (tplayer s * -1)); [|discriminate].
    cbn [bind]. intros [= <- <-]. reflexivity.
Qed.
Lemma bg_play pr : play_game (G := bg_game pr) bg_pos.
Proof.
  constructor.
  - apply bg_alpha.
  - vm_compute. discriminate.
  - intros m. apply actions_eqb_refl.
  - intros m m' H. apply actions_eqb_eq. exact H.
  - intros r. exists (fst (bg_roll_die bg_new r)), (snd (bg_roll_die bg_new r)). split; [unfold fresh; cbn [bg_game g_det g_roll g_new]; destruct (bg_roll_die bg_new r); reflexivity|].
    split; [apply (game_pos pr), game_start|]. unfold bg_roll_die. destruct (gen_range 1 6 r) as [a r1]. destruct (gen_range 1 6 r1). reflexivity.
  - intros s r s' r' (_ & (d & HM) & _) E. cbn [bg_game g_skip g_winner] in *. destruct (skip_spec pr s d r HM) as (s2 & r2 & E2 & Hb & _).
    rewrite E2 in E. injection E as <- <-. unfold bg_check_winner. rewrite Hb. reflexivity.
Qed.

(** ** C44 *)
Section Rounds.
  Variable G : Game.
  Variable tsum : list f32 -> f32.
  Variable dirichlet : nat -> f32 -> rng -> list f32 * rng.
  Variable unif : f64 -> rng -> f64 * rng.
  Variable tpow : f32 -> f32.
  Variable nt : net.
  Variable cfg : mcfg.
  Variable hash : nat -> list (nat * St G) -> list (nat * St G).
  Variable order : nat -> nat -> list nat.
  Hypothesis HHash : forall j l e, In e (hash j l) -> In e l.

  (** every game of the map has been played for at least [j] rounds *)
  Definition atleast (j : nat) (rounds : list nat) (l : list (nat * St G)) : Prop :=
    forall e, In e l -> exists k, nth_error rounds (fst e) = Some k /\ (j <= k)%nat.

  Lemma sp_step_rounds rows st j e (a a' : @racc G) : sp_step tsum unif cfg rows st a e = Ok a' ->
    (exists k, nth_error (a_rounds a) (fst (snd e)) = Some k /\ (j <= k)%nat) ->
    a_out a' = a_out a ++ [(fst (snd e), snd (last (a_out a') (snd e)))]
    /\ (forall i k, nth_error (a_rounds a) i = Some k -> exists k', nth_error (a_rounds a') i = Some k' /\ (k <= k')%nat)
    /\ (exists k, nth_error (a_rounds a') (fst (snd e)) = Some k /\ (S j <= k)%nat)
    /\ (forall i, In i (a_rem a) -> In i (a_rem a'))
    /\ ((sim_limit cfg <= j)%nat -> In (fst (snd e)) (a_rem a')).
  Proof.
    destruct e as [p [i s]]. cbn [fst snd]. intros H (k & Ek & Hk). unfold sp_step in H.
    destruct (idx rows (Z.of_nat p)) as [row|]; [|discriminate H]. cbn [bind] in H.
    rewrite (idx_nth _ _ _ _ Ek) in H. cbn [bind] in H.
    destruct (idx (a_mems a) (Z.of_nat i)) as [mem|]; [|discriminate H]. cbn [bind] in H.
    destruct (sp_play tsum unif st p row s mem (a_rng a)) as [[[[s' mem'] w] r']|]; [|discriminate H]. cbn [bind] in H.
    destruct (upd (a_mems a) (Z.of_nat i) mem') as [mems'|]; [|discriminate H]. cbn [bind] in H.
    rewrite (upd_nth _ _ _ _ _ Ek) in H. cbn [bind] in H.
    set (rem1 := if (sim_limit cfg <=? k)%nat then a_rem a ++ [i] else a_rem a) in H.
    destruct (match w with Some w0 => _ | None => _ end) as [[all2 rem2]|] eqn:E2; [|discriminate H]. cbn [bind] in H.
    injection H as <-. cbn [a_out a_rounds a_rem].
    assert (Hrem : forall x, In x rem1 -> In x rem2).
    { destruct w as [w|]; [|congruence]. destruct (mmap (label w) mem') as [lab|]; [|discriminate E2]. cbn [bind] in E2.
      assert (E3 : rem2 = rem1 ++ [i]) by congruence. rewrite E3. intros x Hx. apply in_or_app. left. exact Hx. }
    split; [rewrite last_last; reflexivity|]. split; [|split; [|split]].
    - intros i2 k2 E. destruct (Nat.eq_dec i2 i) as [->|Hne].
      + exists (S k). rewrite nth_error_set_same by (eapply nth_error_lt; exact Ek). rewrite Ek in E. injection E as <-. split; [reflexivity|lia].
      + exists k2. rewrite nth_error_set_other by congruence. split; [exact E|lia].
    - exists (S k). rewrite nth_error_set_same by (eapply nth_error_lt; exact Ek). split; [reflexivity|lia].
    - intros x Hx. apply Hrem. unfold rem1. destruct (sim_limit cfg <=? k)%nat; [apply in_or_app; left|]; exact Hx.
    - intros Hl. apply Hrem. unfold rem1. destruct (Nat.leb_spec (sim_limit cfg) k); [apply in_or_app; right; left; reflexivity|lia].
  Qed.

  Lemma sp_steps_rounds rows st j : forall l (a a' : @racc G), mfold (sp_step tsum unif cfg rows st) l a = Ok a' ->
    atleast j (a_rounds a) (map snd l) -> atleast (S j) (a_rounds a) (a_out a) ->
    ((sim_limit cfg <= j)%nat -> forall e, In e (a_out a) -> In (fst e) (a_rem a)) ->
    atleast (S j) (a_rounds a') (a_out a') /\ ((sim_limit cfg <= j)%nat -> forall e, In e (a_out a') -> In (fst e) (a_rem a')).
  Proof.
    induction l as [|e l IH]; intros a a' H Hl Ho Hr; cbn [mfold] in H; [injection H as <-; auto|].
    destruct (sp_step tsum unif cfg rows st a e) as [a1|] eqn:E1; [|discriminate H]. cbn [bind] in H.
    destruct (sp_step_rounds rows st j e a a1 E1 (Hl (snd e) (or_introl eq_refl))) as (Eo & Hmono & Hk & Hrem & Hlim).
    apply (IH a1 a' H).
    - intros x Hx. destruct (Hl x (or_intror Hx)) as (k & Ek & Hle). destruct (Hmono _ _ Ek) as (k' & Ek' & Hle'). exists k'. split; [exact Ek'|lia].
    - intros x Hx. rewrite Eo in Hx. apply in_app_or in Hx. destruct Hx as [Hx|[<-|[]]]; [|exact Hk].
      destruct (Ho x Hx) as (k & Ek & Hle). destruct (Hmono _ _ Ek) as (k' & Ek' & Hle'). exists k'. split; [exact Ek'|lia].
    - intros HL x Hx. rewrite Eo in Hx. apply in_app_or in Hx. destruct Hx as [Hx|[<-|[]]]; [apply Hrem, Hr; assumption|apply Hlim, HL].
  Qed.

  Lemma combine_snd (A B : Type) (l : list A) : forall l' : list B, length l = length l' -> map snd (combine l l') = l'.
  Proof. induction l as [|x l IH]; intros [|y l'] H; try discriminate; [reflexivity|]. cbn. f_equal. apply IH. cbn in H. lia. Qed.

  Lemma sp_round_rounds j (a a' : @sps G) : sp_round tsum dirichlet unif tpow nt cfg hash order j a = Ok a' -> atleast j (sp_rounds a) (sp_states a) ->
    atleast (S j) (sp_rounds a') (sp_states a') /\ ((sim_limit cfg <= j)%nat -> sp_states a' = []).
  Proof.
    unfold sp_round. intros H Ha. set (l := hash j (sp_states a)) in H.
    destruct (alpha_mcts_parallel _ _ _ _ _ _ _ _) as [[st r1]|]; [|discriminate H]. cbn [bind] in H.
    destruct (mmap (get_node st) (seq 0 (length l))) as [roots|]; [|discriminate H]. cbn [bind] in H.
    destruct (get_prob_tensor_parallel tsum roots st) as [rows|]; [|discriminate H]. cbn [bind] in H.
    destruct (mfold _ _ _) as [b|] eqn:Eb; [|discriminate H]. cbn [bind] in H. injection H as <-. cbn [sp_states sp_rounds].
    apply (sp_steps_rounds _ _ j) in Eb.
    - destruct Eb as [H1 H2]. split.
      + intros e He. apply filter_In in He. apply H1, He.
      + intros HL. destruct (filter _ (a_out b)) as [|e f] eqn:Ef; [reflexivity|]. exfalso.
        assert (He : In e (filter (fun e0 : nat * St G => negb (existsb (Nat.eqb (fst e0)) (a_rem b))) (a_out b))) by (rewrite Ef; left; reflexivity).
        apply filter_In in He. destruct He as [He Hn]. rewrite negb_true_iff, <- not_true_iff_false, existsb_exists in Hn.
        apply Hn. exists (fst e). split; [apply H2; assumption|apply Nat.eqb_refl].
    - cbn [a_rounds]. rewrite combine_snd by apply seq_length. intros e He. apply Ha, (HHash j), He.
    - intros e [].
    - intros _ e [].
  Qed.

  Lemma sp_rounds_bound k : forall j (a a' : @sps G), mfold (fun a j => sp_round tsum dirichlet unif tpow nt cfg hash order j a) (seq j k) a = Ok a' ->
    atleast j (sp_rounds a) (sp_states a) -> (sim_limit cfg < j)%nat \/ True -> sp_states a' <> [] -> k = 0%nat \/ (j + k <= sim_limit cfg)%nat.
  Proof.
    induction k as [|k IH]; intros j a a' H Ha _ Hne; [left; reflexivity|]. cbn [seq mfold] in H.
    destruct (sp_round _ _ _ _ _ _ _ _ j a) as [a1|] eqn:E1; [|discriminate H]. cbn [bind] in H.
    destruct (sp_round_rounds j a a1 E1 Ha) as [H1 H2].
    destruct (IH (S j) a1 a' H H1 (or_intror I) Hne) as [->|Hle]; [|right; lia].
    cbn in H. injection H as <-. right. destruct (Nat.le_gt_cases (sim_limit cfg) j) as [HL|HL]; [destruct (Hne (H2 HL))|lia].
  Qed.

  (** more fuel than rounds makes no difference *)
  Lemma sp_loop_fuel : forall fuel j (a : @sps G), (sim_limit cfg < fuel + j)%nat -> atleast j (sp_rounds a) (sp_states a) ->
    ((sim_limit cfg < j)%nat -> sp_states a = []) -> forall fuel', (fuel <= fuel')%nat ->
    sp_loop tsum dirichlet unif tpow nt cfg hash order fuel' j a = sp_loop tsum dirichlet unif tpow nt cfg hash order fuel j a.
  Proof.
    induction fuel as [|fuel IH]; intros j a Hf Ha Hl fuel' Hle.
    - destruct fuel'; cbn [sp_loop]; rewrite (Hl ltac:(lia)); reflexivity.
    - destruct fuel' as [|fuel']; [lia|]. cbn [sp_loop]. destruct (sp_states a) as [|e l] eqn:E; [reflexivity|].
      destruct (sp_round _ _ _ _ _ _ _ _ j a) as [a1|p] eqn:E1; [|reflexivity]. cbn [bind]. rewrite <- E in Ha.
      destruct (sp_round_rounds j a a1 E1 Ha) as [H1 H2]. apply IH; [lia|exact H1|intros; apply H2; lia|lia].
  Qed.
End Rounds.

Lemma fresh_games_spec G : forall n i r l r', fresh_games (G := G) i n r = Ok (l, r') -> map fst l = seq i n.
Proof.
  induction n as [|n IH]; intros i r l r' H; cbn [fresh_games] in H; [injection H as <- <-; reflexivity|].
  destruct (fresh r) as [[s r1]|]; [|discriminate H]. cbn [bind] in H. destruct (fresh_games (S i) n r1) as [[l1 r2]|] eqn:E; [|discriminate H].
  cbn [bind] in H. injection H as <- <-. cbn [map seq fst]. f_equal. eapply IH. exact E.
Qed.
Lemma fresh_atleast G n r l r' : fresh_games (G := G) 0 n r = Ok (l, r') -> atleast G 0 (repeat 0%nat n) l.
Proof.
  intros H e He. apply fresh_games_spec in H. apply (in_map fst) in He. rewrite H in He. apply in_seq in He.
  exists 0%nat. split; [|lia]. rewrite (nth_error_nth' _ 0%nat) by (rewrite repeat_length; lia). rewrite nth_repeat. reflexivity.
Qed.

(** the state before the first round *)
Definition sp_start {G} (n : nat) (l : list (nat * St G)) (r : rng) : sps := mkSps l (repeat [] n) [] (repeat 0%nat n) r.

Theorem C44_rounds_lemma : forall (G : Game) tsum dirichlet unif tpow nt cfg hash order n r l r1,
  (forall j (m : list (nat * St G)), Permutation (hash j m) m) -> fresh_games 0 n r = Ok (l, r1) ->
  (forall k a, mfold (fun a j => sp_round tsum dirichlet unif tpow nt cfg hash order j a) (seq 0 k) (sp_start n l r1) = Ok a ->
     sp_states a <> [] -> (k <= sim_limit cfg)%nat)
  /\ forall fuel, (sim_limit cfg < fuel)%nat ->
     self_play_parallel tsum dirichlet unif tpow nt cfg hash order fuel n r = self_play_parallel tsum dirichlet unif tpow nt cfg hash order (S (sim_limit cfg)) n r.
Proof.
  intros G tsum dir unif tpow nt cfg hash order n r l r1 HH Hf.
  assert (HH' : forall j m e, In e (hash j m) -> In e m) by (intros j m e; apply Permutation_in, HH).
  pose proof (fresh_atleast _ _ _ _ _ Hf) as Ha. split.
  - intros k a Hk Hne. destruct (sp_rounds_bound G tsum dir unif tpow nt cfg hash order HH' k 0 _ a Hk Ha (or_intror I) Hne) as [->|Hle]; lia.
  - intros fuel Hfu. unfold self_play_parallel. rewrite Hf. cbn [bind]. apply sp_loop_fuel; [exact HH'|lia|exact Ha|lia|lia].
Qed.

(** ** C45 *)
Lemma fresh_games_ok G I : play_game (G := G) I -> forall n i r, exists l r', fresh_games (G := G) i n r = Ok (l, r')
  /\ forall e, In e l -> I (snd e) /\ g_winner G (snd e) = None /\ exists r0 r0', fresh r0 = Ok (snd e, r0').
Proof.
  intros HP. induction n as [|n IH]; intros i r; [exists [], r; split; [reflexivity|intros e []]|]. cbn [fresh_games].
  destruct (pg_fresh _ _ HP r) as (s & r1 & E & HI & Hw). rewrite E. cbn [bind]. destruct (IH (S i) r1) as (l & r2 & E2 & Hl). rewrite E2. cbn [bind].
  exists ((i, s) :: l), r2. split; [reflexivity|]. intros e [<-|He]; [cbn [snd]; eauto|apply Hl, He].
Qed.

Theorem C45_samples_lemma : forall G I, play_game (G := G) I ->
  forall tsum, tsum_ok tsum -> forall dirichlet, (forall k a rr, length (fst (dirichlet k a rr)) = k) ->
  forall unif, unif_ok unif -> forall tpow, pow_ok tpow -> forall nt, net_ok G nt ->
  forall cfg, SFltb f0 (dir_alpha cfg) = true -> (0 < iterations cfg)%nat ->
  forall hash, (forall j (m : list (nat * St G)), Permutation (hash j m) m) ->
  forall order, (forall j n, Permutation (order j n) (seq 0 n)) ->
  forall n fuel r, 1 + Z.of_nat (iterations cfg) * Z.of_nat (S n) <= 2 ^ 24 -> (sim_limit cfg < fuel)%nat ->
  exists (games : list (St G)) out r' parts, self_play_parallel tsum dirichlet unif tpow nt cfg hash order fuel n r = Ok (out, r')
    /\ length games = n
    /\ (forall s, In s games -> exists r0 r0', fresh r0 = Ok (s, r0'))
    /\ out = concat (map snd parts) /\ Permutation (map fst parts) (seq 0 n)
    /\ forall i b, In (i, b) parts -> exists s0, nth_error games i = Some s0 /\ block tpow (sim_limit cfg) s0 b.
Proof.
  intros G I HP tsum HS dir HD unif HU tpow HPow nt HN cfg HA HIt hash HH order HO n fuel r HB Hfu.
  destruct (fresh_games_ok G I HP n 0 r) as (l & r1 & El & Hl). pose proof (fresh_games_spec _ _ _ _ _ _ El) as Hf.
  assert (HL : length l = n) by (rewrite <- (map_length fst), Hf; apply seq_length).
  assert (HStarts : forall s, In s (map snd l) -> I s) by (intros s Hs; apply in_map_iff in Hs; destruct Hs as (e & <- & He); apply Hl, He).
  unfold self_play_parallel. rewrite El. cbn [bind].
  destruct (loop_ok G I tsum HS dir HD unif HU tpow HPow nt HN cfg HA HIt hash HH order HO HP (map snd l) HStarts) with
    (fuel := fuel) (j := 0%nat) (a := mkSps l (repeat (@nil frag) n) (@nil frag) (repeat 0%nat n) r1) (done := @nil (nat * list frag)) as (out & r' & done & E & Eo & HC & HPm).
  - rewrite map_length, HL. exact HB.
  - lia.
  - constructor; cbn [sp_states sp_mems sp_all sp_rounds].
    + intros e He. destruct (Hl e He) as (HIe & Hw & _). exists (snd e), []. pose proof He as Hin. apply In_nth_error in He. destruct He as [p Ep].
      assert (Ef : fst e = p).
      { assert (Hp : nth_error (seq 0 n) p = Some (fst e)) by (rewrite <- Hf; rewrite nth_error_map, Ep; reflexivity).
        assert (Hlt : (p < n)%nat) by (apply nth_error_lt in Ep; lia). rewrite (nth_error_nth' _ 0%nat) in Hp by (rewrite seq_length; lia). rewrite seq_nth in Hp by lia. cbn in Hp. congruence. }
      assert (Hlt : (p < n)%nat) by (apply nth_error_lt in Ep; lia).
      rewrite Ef. split; [rewrite nth_error_map, Ep; reflexivity|].
      split; [rewrite (nth_error_nth' _ []) by (rewrite repeat_length; lia); rewrite nth_repeat; reflexivity|].
      split; [rewrite (nth_error_nth' _ 0%nat) by (rewrite repeat_length; lia); rewrite nth_repeat; reflexivity|]. constructor. exact Hw.
    + reflexivity.
    + constructor.
    + rewrite map_length, HL, Hf. cbn [map app]. rewrite app_nil_r. apply Permutation_refl.
    + rewrite map_length, !repeat_length. auto.
    + intros Hx. lia.
  - exists (map snd l), out, r', done. split; [exact E|]. split; [rewrite map_length; exact HL|].
    split; [intros s Hs; apply in_map_iff in Hs; destruct Hs as (e & <- & He); apply Hl, He|]. split; [exact Eo|].
    rewrite map_length, HL in HPm. split; [exact HPm|]. intros i b Hin. rewrite Forall_forall in HC. apply (HC (i, b) Hin).
Qed.

Theorem C45_labels_lemma : forall G tpow limit (s0 : St G) b f, block tpow limit s0 b -> In f b -> fr_outcome f = -1 \/ fr_outcome f = 0 \/ fr_outcome f = 1.
Proof.
  intros G tpow limit s0 b f Hb Hf.
  assert (Hsc : forall w h, In f (scored w h) -> fr_outcome f = -1 \/ fr_outcome f = 0 \/ fr_outcome f = 1).
  { intros w h Hin. apply in_map_iff in Hin. destruct Hin as (f0 & <- & _). cbn. unfold score. destruct (_ =? _); [auto|]. destruct (_ =? _); auto. }
  assert (H0 : forall h, In f (map (set_outcome 0) h) -> fr_outcome f = -1 \/ fr_outcome f = 0 \/ fr_outcome f = 1).
  { intros h Hin. apply in_map_iff in Hin. destruct Hin as (f0 & <- & _). cbn. auto. }
  destruct Hb as [h k s ps x s' w Hh Hk Hm Hw|h s s' Hh Hc|h s ps x s' w Hh Hm Hw].
  - eapply Hsc, Hf.
  - eapply H0, Hf.
  - apply in_app_or in Hf. destruct Hf as [Hf|Hf]; [eapply H0, Hf|eapply Hsc, Hf].
Qed.

(** ** C46 *)
Theorem C46_next_move_lemma : forall G I, alpha_game G I -> forall tsum dirichlet unif tpow nt cfg, net_ok G nt ->
  forall s vm r, I s -> g_valid G s = Ok vm ->
  let next := get_next_move_for_state unif tpow (fun s r => alpha_mcts (G := G) tsum dirichlet nt cfg s r) s r in
  (g_winner G s = None -> vm <> [] -> exists p, next = Panic p /\ p <> PFuel)
  /\ (g_winner G s <> None \/ vm = [] -> next = Ok (g_empty G, r)).
Proof.
  intros G I HA tsum dir unif tpow nt cfg HN s vm r Hs Hv. cbv zeta. unfold get_next_move_for_state.
  destruct (C34_sequential_search_lemma G I HA tsum dir nt cfg HN s vm r Hs Hv) as [H1 H2]. split.
  - intros Hw Hne. destruct (H1 Hw Hne) as (p & E & Hp). rewrite E. cbn [bind]. eauto.
  - intros Hc. rewrite (H2 Hc). reflexivity.
Qed.

(** with a search that works *)
Theorem C46_choice_lemma : forall (G : Game) unif, unif_ok unif -> forall tpow, pow_ok tpow -> forall search s r r1,
  (search s r = Ok (None, r1) -> get_next_move_for_state (G := G) unif tpow search s r = Ok (g_empty G, r1))
  /\ (forall pi, search s r = Ok (Some pi, r1) -> Z.of_nat (length pi) <= 2 ^ 40 -> Forall unit32 pi -> Exists (fun x => tpow x <> f0) pi ->
        exists a r2, (a < length pi)%nat /\ tpow (nth a pi f0) <> f0
          /\ (forall m, g_decode G s (Z.of_nat a) = Ok m -> get_next_move_for_state (G := G) unif tpow search s r = Ok (m, r2))
          /\ (forall p, g_decode G s (Z.of_nat a) = Panic p -> get_next_move_for_state (G := G) unif tpow search s r = Panic p)).
Proof.
  intros G unif HU tpow [Hp0 Hpu] search s r r1. unfold get_next_move_for_state. split; [intros ->; reflexivity|]. intros pi E HL HF HE. rewrite E. cbn [bind].
  destruct (select_ok unif (map tpow pi) r1 HU) as (a & r2 & Ea & Ha & Hn).
  - rewrite map_length. exact HL.
  - apply Forall_map. eapply Forall_impl; [|exact HF]. exact Hpu.
  - apply Exists_exists in HE. destruct HE as (x & Hx & Hne). apply Exists_exists. exists (tpow x). split; [apply in_map, Hx|exact Hne].
  - rewrite Ea. cbn [bind]. rewrite map_length in Ha. exists a, r2. split; [exact Ha|]. split; [rewrite <- Hp0 in Hn at 1; rewrite map_nth in Hn; exact Hn|]. split; intros ? ->; reflexivity.
Qed.

Theorem C46_self_play_lemma : forall G I, play_game (G := G) I -> forall tsum dirichlet unif tpow nt cfg, net_ok G nt ->
  forall fuel r, exists p, self_play unif tpow (fun s r => alpha_mcts (G := G) tsum dirichlet nt cfg s r) fuel r = Panic p
    /\ ((0 < fuel)%nat -> (forall s r', fresh r = Ok (s, r') -> g_valid G s <> Ok []) -> p <> PFuel).
Proof.
  intros G I HP tsum dir unif tpow nt cfg HN fuel r. unfold self_play. pose proof (pg_alpha _ _ HP) as HA.
  destruct (pg_fresh _ _ HP r) as (s & r1 & E & HI & Hw). rewrite E. cbn [bind].
  assert (Hgen : forall fuel s mem r, I s -> exists p, self_play_loop unif tpow (fun s r => alpha_mcts (G := G) tsum dir nt cfg s r) fuel s mem r = Panic p
      /\ ((0 < fuel)%nat -> g_winner G s = None -> g_valid G s <> Ok [] -> p <> PFuel)).
  { clear - HP HA HN. induction fuel as [|fuel IH]; intros s mem r HI; cbn [self_play_loop]; [exists PFuel; split; [reflexivity|lia]|].
    destruct (good_valid _ _ (ag_good _ _ HA) s HI) as [vm Hv]. destruct (C34_sequential_search_lemma G I HA tsum dir nt cfg HN s vm r HI Hv) as [H1 H2].
    assert (Hskip : g_winner G s <> None \/ vm = [] -> forall k : list f32 -> rng -> res (list frag * rng), exists p, ('(o, r1) <- alpha_mcts tsum dir nt cfg s r ;;
       match o with
       | Some pi => k pi r1
       | None => '(s', r') <- g_skip G s r1 ;; self_play_loop unif tpow (fun s r => alpha_mcts (G := G) tsum dir nt cfg s r) fuel s' mem r'
       end) = Panic p).
    { intros Hc k. rewrite (H2 Hc). cbn [bind]. destruct (good_skip _ _ (ag_good _ _ HA) s r HI) as (s' & r' & Es & HI'). rewrite Es. cbn [bind].
      destruct (IH s' mem r' HI') as (p & Ep & _). eauto. }
    destruct (g_winner G s) as [w|] eqn:Hw.
    - edestruct Hskip as [p Ep]; [left; discriminate|]. exists p. split; [exact Ep|]. intros _ Hx. discriminate Hx.
    - destruct vm as [|v vm].
      + edestruct Hskip as [p Ep]; [right; reflexivity|]. exists p. split; [exact Ep|]. intros _ _ Hx. contradiction.
      + destruct (H1 eq_refl ltac:(discriminate)) as (p & Ep & Hp). rewrite Ep. cbn [bind]. exists p. split; [reflexivity|auto]. }
  destruct (Hgen fuel s [] r1 HI) as (p & Ep & Hp). exists p. split; [exact Ep|]. intros Hf Hv. apply Hp; [exact Hf|exact Hw|]. apply (Hv s r1 eq_refl).
Qed.

(** in both games the first position has a move *)
Lemma ttt_first_move pr r s r' : fresh (G := ttt_game pr) r = Ok (s, r') -> g_valid (ttt_game pr) s <> Ok [].
Proof. cbn. intros [= <- <-]. discriminate. Qed.
Lemma bg_first_move pr r s r' : fresh (G := bg_game pr) r = Ok (s, r') -> g_valid (bg_game pr) s <> Ok [].
Proof.
  unfold fresh. cbn [bg_game g_det g_roll g_new g_valid]. unfold bg_roll_die.
  pose proof (gen_range_spec 1 6 r ltac:(lia)) as H1. destruct (gen_range 1 6 r) as [a r1]. cbn [fst] in H1.
  pose proof (gen_range_spec 1 6 r1 ltac:(lia)) as H2. destruct (gen_range 1 6 r1) as [b r2]. cbn [fst] in H2. intros [= <- <-].
  assert (Ha : a = 1 \/ a = 2 \/ a = 3 \/ a = 4 \/ a = 5 \/ a = 6) by lia. assert (Hb : b = 1 \/ b = 2 \/ b = 3 \/ b = 4 \/ b = 5 \/ b = 6) by lia.
  clear H1 H2. destruct pr, Ha as [->|[->|[->|[->|[->| ->]]]]], Hb as [->|[->|[->|[->|[->| ->]]]]]; vm_compute; discriminate.
Qed.

Theorem C46_labels_lemma : forall (G : Game) unif tpow search fuel r out r', self_play (G := G) unif tpow search fuel r = Ok (out, r') ->
  exists s0 r0 h s w, fresh r = Ok (s0, r0) /\ seq_history s0 h s /\ g_winner G s = Some w /\ h <> []
    /\ length out = length h
    /\ forall i f, nth_error h i = Some f -> exists g, nth_error out i = Some g /\ fr_ps g = fr_ps f /\ fr_state g = fr_state f
         /\ (fr_outcome f = w -> fr_outcome g = 1) /\ (fr_outcome f <> w -> fr_outcome g = -1).
Proof.
  intros G unif tpow search fuel r out r' H. unfold self_play in H. destruct (fresh r) as [[s0 r0]|] eqn:Ef; [|discriminate H]. cbn [bind] in H.
  exists s0, r0.
  assert (Hgen : forall fuel s mem r, seq_history s0 mem s -> self_play_loop unif tpow search fuel s mem r = Ok (out, r') ->
    exists h s w, seq_history s0 h s /\ g_winner G s = Some w /\ h <> [] /\ out = map (fun f => set_outcome (if fr_outcome f =? w then 1 else -1) f) h).
  { clear. induction fuel as [|fuel IH]; intros s mem r Hh H; cbn [self_play_loop] in H; [discriminate H|].
    destruct (search s r) as [[o r1]|]; [|discriminate H]. cbn [bind] in H. destruct o as [pi|].
    - destruct (weighted_select_tensor_idx unif (map tpow pi) r1) as [[a r2]|]; [|discriminate H]. cbn [bind] in H.
      destruct (g_tensor G s) as [x|] eqn:Ex; [|discriminate H]. cbn [bind] in H. destruct (g_decode G s (Z.of_nat a)) as [m|]; [|discriminate H]. cbn [bind] in H.
      destruct (g_apply G s m r2) as [[s' r3]|] eqn:Ea; [|discriminate H]. cbn [bind] in H.
      assert (Hh' : seq_history s0 (mem ++ [mkFrag (g_player G s) (map tpow pi) x]) s') by (eapply q_move; eassumption).
      destruct (g_winner G s') as [w|] eqn:Ew; [|eapply IH; eassumption].
      injection H as <- <-. exists (mem ++ [mkFrag (g_player G s) (map tpow pi) x]), s', w. split; [exact Hh'|]. split; [exact Ew|]. split; [|reflexivity].
      destruct mem; discriminate.
    - destruct (g_skip G s r1) as [[s' r2]|] eqn:Es; [|discriminate H]. cbn [bind] in H. eapply IH; [|exact H]. eapply q_skip; eassumption. }
  destruct (Hgen fuel s0 [] r0 (q_start _ _) H) as (h & s & w & Hh & Hw & Hne & ->). exists h, s, w. split; [reflexivity|]. split; [exact Hh|]. split; [exact Hw|].
  split; [exact Hne|]. split; [apply map_length|]. intros i f Hf. exists (set_outcome (if fr_outcome f =? w then 1 else -1) f).
  split; [rewrite nth_error_map, Hf; reflexivity|]. cbn. repeat (split; [reflexivity|]). destruct (Z.eqb_spec (fr_outcome f) w); split; congruence.
Qed.
