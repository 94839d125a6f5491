(** * VersusApi: matches between agents (C39-C42, C55). *)
From Coq Require Import Permutation.
From Verif Require Import Base BaseFacts F32 F32Facts RoundFacts Tensor TttModel TttSpec TttApi BgModel BgSpec BgReach BgTurn EncModel GameModel McModel McSpec McProof GameFacts
  AlphaModel AlphaSpec AlphaInst AlphaApi SampleModel VisitSpec SelfModel SelfSpec SelfProof SelfApi VersusModel VersusSpec VersusProof.
Require Import ZifyBool ZifyNat.

(** ** both games can be played in a match *)
Lemma ttt_first pr i r : exists s r', first_state (G := ttt_game pr) i r = Ok (s, r')
  /\ tboard s = tboard ttt_new /\ tplayer s = (if (i <? 200)%nat then -1 else 1) /\ tid s = Z.of_nat i.
Proof.
  unfold first_state. change (num_games / 2)%nat with 200%nat. cbn [ttt_game g_skip g_new g_det g_set_id].
  destruct (Nat.leb_spec 200 i), (Nat.ltb_spec i 200); try lia.
  - unfold ttt_skip_turn. rewrite i8_ok by (cbn; lia). cbn. do 2 eexists. split; [reflexivity|]. auto.
  - cbn. do 2 eexists. split; [reflexivity|]. auto.
Qed.
Lemma bg_first pr i r : exists s r', first_state (G := bg_game pr) i r = Ok (s, r')
  /\ bgboard s = initial_board /\ player s = (if (i <? 200)%nat then -1 else 1) /\ rolled (roll s) /\ second s = false /\ bgid s = Z.of_nat i.
Proof.
  unfold first_state. change (num_games / 2)%nat with 200%nat. cbn [bg_game g_skip g_new g_det g_set_id g_roll].
  destruct (Nat.leb_spec 200 i), (Nat.ltb_spec i 200); try lia.
  - destruct (skip_spec pr bg_new P1 r eq_refl) as (s1 & r1 & E1 & Hb & HM & Hs & _ & _). rewrite E1. cbn [bind].
    pose proof (roll_die_spec s1 r1) as (H1 & H2 & H3 & H4 & H5). destruct (bg_roll_die s1 r1) as [s2 r2]. cbn [bind fst] in *.
    do 2 eexists. split; [reflexivity|]. cbn [bgboard player roll second bgid]. split; [rewrite H2, Hb; reflexivity|]. split; [rewrite H3; exact HM|]. split; [exact H1|]. split; [rewrite H4; exact Hs|reflexivity].
  - cbn [bind]. pose proof (roll_die_spec bg_new r) as (H1 & H2 & H3 & H4 & H5). destruct (bg_roll_die bg_new r) as [s2 r2]. cbn [bind fst] in *.
    do 2 eexists. split; [reflexivity|]. cbn [bgboard player roll second bgid]. auto.
Qed.

Lemma ttt_match pr : match_game (G := ttt_game pr) ttt_pos.
Proof.
  constructor.
  - apply ttt_play.
  - intros i r. destruct (ttt_first pr i r) as (s & r' & E & Hb & Hp & Hid). exists s, r'. split; [exact E|].
    split; [split; [rewrite Hb; reflexivity|]; rewrite Hp; destruct (i <? 200)%nat; auto|]. split; [|split; [exact Hid|exact Hp]].
    cbn [ttt_game g_winner]. unfold ttt_check_winner. rewrite Hb. reflexivity.
  - intros s m r s' r'. cbn [ttt_game g_apply g_id]. unfold ttt_apply_move. destruct (upd _ _ _); [|discriminate]. cbn [bind].
    destruct (i8 _ _); [|discriminate]. cbn [bind]. intros [= <- <-]. reflexivity.
  - intros s r s' r'. cbn [ttt_game g_skip g_id]. unfold ttt_skip_turn. destruct (i8 _ _); [|discriminate]. cbn [bind]. intros [= <- <-]. reflexivity.
  - intros s vm [HL _] [= <-] Hin. apply (valid_moves_cell _ _ HL) in Hin. change (g_empty (ttt_game pr)) with 10 in Hin. lia.
Qed.
Lemma bg_match pr : match_game (G := bg_game pr) bg_pos.
Proof.
  constructor.
  - apply bg_play.
  - intros i r. destruct (bg_first pr i r) as (s & r' & E & Hb & Hp & Hr & _ & Hid). exists s, r'. split; [exact E|].
    split; [unfold bg_pos; rewrite Hb; split; [apply WF_initial|]; split; [|exact Hr]; unfold mover; rewrite Hp; destruct (i <? 200)%nat; [exists P1|exists P2]; reflexivity|].
    split; [|split; [exact Hid|exact Hp]]. cbn [bg_game g_winner]. unfold bg_check_winner. rewrite Hb. reflexivity.
  - intros s m r s' r'. cbn [bg_game g_apply g_id]. unfold bg_apply_move. destruct (get_next_state _ _ _ _) as [b'|]; [|discriminate]. cbn [bind].
    destruct (_ && _); [intros [= <- <-]; reflexivity|]. destruct (i8 _ _) as [p'|]; [|discriminate]. cbn [bind]. intros E. apply (f_equal (fun x => match x with Ok y => fst y | Panic _ => s end)) in E. cbn [fst] in E.
    pose proof (roll_die_spec (mkBg b' (roll s) p' false (bgid s)) r) as (_ & _ & _ & _ & H). rewrite <- E. exact H.
  - intros s r s' r'. cbn [bg_game g_skip g_id]. unfold bg_skip_turn. destruct (i8 _ _) as [p'|]; [|discriminate]. cbn [bind]. intros E. apply (f_equal (fun x => match x with Ok y => fst y | Panic _ => s end)) in E. cbn [fst] in E.
    pose proof (roll_die_spec (mkBg (bgboard s) (roll s) p' false (bgid s)) r) as (_ & _ & _ & _ & H). rewrite <- E. exact H.
  - intros s vm (HW & (d & HM) & HR) Hv Hin. destruct (valid_moves_spec pr s d HW HR HM) as (l & E & Hl & _). cbn [bg_game g_valid] in Hv. rewrite E in Hv.
    injection Hv as <-. destruct (Hl _ Hin) as (ms & Hne & Em & _). destruct ms; [apply Hne; reflexivity|discriminate Em].
Qed.

(** ** C40 *)
Theorem C40_tictactoe_lemma : forall pr nanoid t1 t2 r, exists l r', first_games (G := ttt_game pr) nanoid t1 t2 0 400 r = Ok (l, r')
  /\ length l = 400%nat /\ forall i, (i < 400)%nat -> exists s g, nth_error l i = Some (Z.of_nat i, (s, g))
       /\ tboard s = repeat 0 9 /\ tplayer s = (if (i <? 200)%nat then -1 else 1) /\ tid s = Z.of_nat i
       /\ vg_init g = s /\ vg_turns g = [] /\ vg_winner g = ANone /\ vg_p1 g = t1 /\ vg_p2 g = t2.
Proof.
  intros pr nanoid t1 t2 r. destruct (first_games_ok (ttt_game pr) ttt_pos (ttt_match pr) nanoid t1 t2 400 0 r) as (l & r' & E & HF). exists l, r'. split; [exact E|].
  split; [apply F2_length in HF; rewrite seq_length in HF; symmetry; exact HF|]. intros i Hi.
  destruct (Forall2_nth_l _ _ _ _ _ i i HF) as ([k [s g]] & Ek & H1 & _ & _ & _ & id & r1 & r2 & Hg & Hf).
  { rewrite nth_error_nth' with (d := 0%nat) by (rewrite seq_length; exact Hi). rewrite seq_nth by exact Hi. reflexivity. }
  unfold gm_of, st_of in *. cbn [fst snd] in *. subst k g. exists s, (vg_new id t1 t2 s). split; [exact Ek|].
  destruct (ttt_first pr i r1) as (s' & r3 & E' & Hb & Hp & Hid). rewrite Hf in E'. injection E' as <- <-. cbn. auto 10.
Qed.
Theorem C40_backgammon_lemma : forall pr nanoid t1 t2 r, exists l r', first_games (G := bg_game pr) nanoid t1 t2 0 400 r = Ok (l, r')
  /\ length l = 400%nat /\ forall i, (i < 400)%nat -> exists s g, nth_error l i = Some (Z.of_nat i, (s, g))
       /\ bgboard s = initial_board /\ player s = (if (i <? 200)%nat then -1 else 1) /\ second s = false /\ bgid s = Z.of_nat i
       /\ 1 <= fst (roll s) <= 6 /\ 1 <= snd (roll s) <= 6
       /\ vg_init g = s /\ vg_turns g = [] /\ vg_winner g = ANone /\ vg_p1 g = t1 /\ vg_p2 g = t2.
Proof.
  intros pr nanoid t1 t2 r. destruct (first_games_ok (bg_game pr) bg_pos (bg_match pr) nanoid t1 t2 400 0 r) as (l & r' & E & HF). exists l, r'. split; [exact E|].
  split; [apply F2_length in HF; rewrite seq_length in HF; symmetry; exact HF|]. intros i Hi.
  destruct (Forall2_nth_l _ _ _ _ _ i i HF) as ([k [s g]] & Ek & H1 & _ & _ & _ & id & r1 & r2 & Hg & Hf).
  { rewrite nth_error_nth' with (d := 0%nat) by (rewrite seq_length; exact Hi). rewrite seq_nth by exact Hi. reflexivity. }
  unfold gm_of, st_of in *. cbn [fst snd] in *. subst k g. exists s, (vg_new id t1 t2 s). split; [exact Ek|].
  destruct (bg_first pr i r1) as (s' & r3 & E' & Hb & Hp & Hr & Hs & Hid). rewrite Hf in E'. injection E' as <- <-. unfold rolled, die in Hr. cbn. repeat (split; [tauto|]). auto.
Qed.

(** ** the whole match *)
Section Match.
  Variable G : Game.
  Variable I : St G -> Prop.
  Variables (tsum : list f32 -> f32) (dirichlet : nat -> f32 -> rng -> list f32 * rng) (unif : f64 -> rng -> f64 * rng) (tpow : f32 -> f32) (cfg : mcfg).
  Variable hash : nat -> list (Z * (St G * vgame G)) -> list (Z * (St G * vgame G)).
  Variable order : nat -> bool -> nat -> list nat.
  Variables p1 p2 : vplayer.
  Hypothesis HS : setting G I tsum dirichlet unif tpow cfg hash order p1 p2.
  Variable ln : f32 -> f32.
  Variable nanoid : rng -> Z * rng.
  Notation t1 := (pl_type p1).
  Notation t2 := (pl_type p2).
  Notation round := (vs_round ln tsum dirichlet unif tpow cfg hash order p1 p2).
  Notation ok := (vs_ok G I ln tsum dirichlet unif tpow cfg p1 p2).

  Lemma start_ok r : exists starts a, vs_start nanoid p1 p2 r = Ok a /\ length starts = 400%nat /\ ok starts 0 a []
    /\ (forall i g, nth_error starts i = Some g -> exists id r r', g = vg_new id t1 t2 (vg_init g) /\ first_state i r = Ok (vg_init g, r'))
    /\ begun t1 t2 nanoid 0 r starts.
  Proof.
    unfold vs_start. destruct (first_games_ok G I (se_game _ _ _ _ _ _ _ _ _ _ _ HS) nanoid t1 t2 400 0 r) as (l & r' & E & HF).
    change num_games with 400%nat. rewrite E. cbn [bind]. exists (map (gm_of G) l). eexists. split; [reflexivity|].
    split; [rewrite map_length; apply F2_length in HF; rewrite seq_length in HF; symmetry; exact HF|]. split; [|split; [|eapply first_games_begun; exact E]].
    - constructor; cbn [s_games s_played s_w1 s_w2 s_count map app]; try reflexivity.
      + constructor.
      + clear E. generalize dependent l. generalize 0%nat at 1. intros i l HF. apply Forall_forall. intros e He. apply In_nth_error in He. destruct He as [q Hq].
        assert (Hx : exists x, nth_error (seq i 400) q = Some x) by (apply nth_error_ex; rewrite (F2_length _ _ _ _ _ HF); apply nth_error_lt in Hq; exact Hq).
        destruct Hx as [x Hx]. destruct (Forall2_nth_l _ _ _ _ _ _ _ HF Hx) as (e' & Eq & H1 & H2 & H3 & H4 & id & r1 & r2 & H5 & H6).
        rewrite Hq in Eq. injection Eq as <-. split; [congruence|]. split; [exact H2|]. split; [exact H3|]. rewrite H5. cbn. apply v_start. exact H3.
      + assert (Ek : map fst l = map Z.of_nat (seq 0 400)).
        { clear E. revert HF. generalize (seq 0 400). intros q HF. induction HF as [|i e q l (H & _) _ IH]; [reflexivity|]. cbn [map]. rewrite H, IH. reflexivity. }
        rewrite Ek. apply FinFun.Injective_map_NoDup; [intros x y; apply Nat2Z.inj|apply seq_NoDup].
    - intros i g Hg. rewrite nth_error_map in Hg. destruct (nth_error l i) as [e|] eqn:Ee; [|discriminate]. cbn in Hg. injection Hg as <-.
      assert (Hi : (i < 400)%nat) by (apply nth_error_lt in Ee; rewrite <- (F2_length _ _ _ _ _ HF), seq_length in Ee; exact Ee).
      destruct (Forall2_nth_l _ _ _ _ _ i i HF) as (e' & Eq & H1 & H2 & H3 & H4 & id & r1 & r2 & H5 & H6).
      { rewrite nth_error_nth' with (d := 0%nat) by (rewrite seq_length; exact Hi). rewrite seq_nth by exact Hi. reflexivity. }
      rewrite Ee in Eq. injection Eq as <-. exists id, r1, r2. rewrite H5. cbn. auto.
  Qed.

  Lemma play_cases fuel r :
    (exists res r' starts ws, play ln tsum dirichlet unif tpow nanoid cfg hash order p1 p2 fuel r = Ok (res, r') /\ report (plays ln tsum dirichlet unif tpow cfg p1 p2) tpow t1 t2 res starts ws /\ begun t1 t2 nanoid 0 r starts)
    \/ (exists q k, play ln tsum dirichlet unif tpow nanoid cfg hash order p1 p2 fuel r = Panic q /\ (k < fuel)%nat /\ match_panic G I p1 p2 k q)
    \/ (play ln tsum dirichlet unif tpow nanoid cfg hash order p1 p2 fuel r = Panic PFuel
        /\ exists a a', vs_start nanoid p1 p2 r = Ok a /\ mfold (fun a j => round j a) (seq 0 fuel) a = Ok a' /\ s_games a' <> []).
  Proof.
    destruct HS as [S1 S2 S3 S4 S5 S6 S7 S8 S9 S10 S11 S12].
    destruct (start_ok r) as (starts & a & E & HL & HK & Hst & Hb). unfold play. rewrite E. cbn [bind].
    destruct (vloop_ok G I ln tsum S2 dirichlet S3 unif S4 tpow S5 cfg S6 S7 S8 hash S9 order S10 S1 p1 p2 S11 S12 starts HL fuel 0 a [] HK)
      as [(a' & D' & k & H1 & H2 & H3 & _)|[(q & k & H1 & H2 & H3)|(H1 & a' & H2 & H3)]]; rewrite H1; cbn [bind].
    - assert (Hres : exists res ws, vs_result p1 p2 a' = Ok res /\ report (plays ln tsum dirichlet unif tpow cfg p1 p2) tpow t1 t2 res starts ws) by (eapply vresult_ok; eassumption).
      destruct Hres as (res & ws & Er & Hr). rewrite Er. cbn [bind].
      left. do 4 eexists. split; [reflexivity|]. split; [exact Hr|exact Hb].
    - right. left. exists q, k. auto.
    - right. right. split; [reflexivity|]. exists a, a'. auto.
  Qed.

  Lemma rounds_ok r a k a' : vs_start nanoid p1 p2 r = Ok a -> mfold (fun a j => round j a) (seq 0 k) a = Ok a' -> exists starts D, ok starts k a' D
    /\ forall i g, nth_error starts i = Some g -> exists id r r', g = vg_new id t1 t2 (vg_init g) /\ first_state i r = Ok (vg_init g, r').
  Proof.
    intros E Hm. destruct HS as [S1 S2 S3 S4 S5 S6 S7 S8 S9 S10 S11 S12].
    destruct (start_ok r) as (starts & a0 & E0 & HL & HK & Hst & _). rewrite E in E0. injection E0 as <-.
    destruct (vrounds_ok G I ln tsum S2 dirichlet S3 unif S4 tpow S5 cfg S6 S7 S8 hash S9 order S10 S1 p1 p2 S11 S12 starts HL k 0 a a' [] HK Hm) as [D HD]. exists starts, D. split; [exact HD|exact Hst].
  Qed.
End Match.

Theorem C39_accounting_lemma : forall G I tsum dirichlet unif tpow cfg hash order p1 p2, setting G I tsum dirichlet unif tpow cfg hash order p1 p2 ->
  forall ln nanoid fuel r res r', play ln tsum dirichlet unif tpow nanoid cfg hash order p1 p2 fuel r = Ok (res, r') ->
  exists starts ws, report (plays ln tsum dirichlet unif tpow cfg p1 p2) tpow (pl_type p1) (pl_type p2) res starts ws /\ begun (pl_type p1) (pl_type p2) nanoid 0 r starts.
Proof.
  intros G I tsum dirichlet unif tpow cfg hash order p1 p2 HS ln nanoid fuel r res r' E.
  destruct (play_cases G I tsum dirichlet unif tpow cfg hash order p1 p2 HS ln nanoid fuel r) as [(res2 & r2 & starts & ws & E2 & H & Hb)|[(q & k & E2 & _)|(E2 & _)]]; [|congruence..].
  rewrite E in E2. injection E2 as <- <-. eauto.
Qed.

Definition agent_eq_dec (a b : agent) : {a = b} + {a <> b}.
Proof. decide equality. Defined.
Theorem C39_totals_lemma : forall G may tpow t1 t2 (res : result G) starts ws, report may tpow t1 t2 res starts ws ->
  0 <= r_wins1 res /\ 0 <= r_wins2 res /\ 0 <= r_draws res /\ r_wins1 res + r_wins2 res + r_draws res = 400 /\ r_n res = 400 /\ length (r_games res) = 400%nat
  /\ (t1 <> ANone -> t2 <> ANone -> Z.of_nat (count_occ agent_eq_dec (map vg_winner (r_games res)) ANone) = r_draws res)
  /\ (t1 <> ANone -> t2 <> ANone -> t1 <> t2 ->
        Z.of_nat (count_occ agent_eq_dec (map vg_winner (r_games res)) t1) = r_wins1 res
        /\ Z.of_nat (count_occ agent_eq_dec (map vg_winner (r_games res)) t2) = r_wins2 res).
Proof.
  intros G may tpow t1 t2 res starts ws [HL _ HE HP -> -> -> -> _ _]. pose proof (F2_length _ _ _ _ _ HE) as HLw.
  pose proof (times_bound ws) as (H1 & H2 & H3). rewrite <- HLw, HL in H3. change (Z.of_nat 400) with 400 in H3.
  split; [lia|]. split; [lia|]. split; [lia|]. split; [lia|]. split; [reflexivity|].
  split; [rewrite (Permutation_length HP), map_length, combine_length; lia|].
  assert (Hw : forall x, count_occ agent_eq_dec (map vg_winner (r_games res)) x = count_occ agent_eq_dec (map (won_by t1 t2) ws) x).
  { intros x. rewrite (proj1 (Permutation_count_occ agent_eq_dec _ _) (Permutation_map vg_winner HP) x). f_equal. clear -HE. induction HE; [reflexivity|]. cbn. f_equal. assumption. }
  assert (HLz : Z.of_nat (length ws) = 400) by lia. clear HE HP HLw H1 H2 H3.
  assert (Hc : forall (P : t1 <> ANone) (Q : t2 <> ANone), Z.of_nat (count_occ agent_eq_dec (map (won_by t1 t2) ws) ANone) = Z.of_nat (length ws) - times (-1) ws - times 1 ws
    /\ (t1 <> t2 -> Z.of_nat (count_occ agent_eq_dec (map (won_by t1 t2) ws) t1) = times (-1) ws /\ Z.of_nat (count_occ agent_eq_dec (map (won_by t1 t2) ws) t2) = times 1 ws)).
  { intros P Q. clear HLz Hw. unfold times. induction ws as [|w ws [IH1 IH2]]; [cbn; auto|]. cbn [map count_occ length].
    destruct (Z.eq_dec w (-1)) as [->|N1]; [|destruct (Z.eq_dec w 1) as [->|N2]].
    - change (won_by t1 t2 (-1)) with t1. destruct (agent_eq_dec t1 ANone); [contradiction|]. destruct (Z.eq_dec (-1) 1); [discriminate|]. split; [lia|].
      intros Hne. destruct (agent_eq_dec t1 t1); [|contradiction]. destruct (agent_eq_dec t1 t2); [contradiction|]. specialize (IH2 Hne). lia.
    - change (won_by t1 t2 1) with t2. destruct (agent_eq_dec t2 ANone); [contradiction|]. destruct (Z.eq_dec 1 1); [|contradiction]. split; [lia|].
      intros Hne. destruct (agent_eq_dec t2 t2); [|contradiction]. destruct (agent_eq_dec t2 t1); [congruence|]. specialize (IH2 Hne). lia.
    - assert (Ew : won_by t1 t2 w = ANone) by (unfold won_by; destruct (Z.eqb_spec w (-1)), (Z.eqb_spec w 1); try contradiction; reflexivity). rewrite Ew.
      destruct (agent_eq_dec ANone ANone); [|contradiction]. destruct (Z.eq_dec w 1); [contradiction|]. split; [lia|].
      intros Hne. destruct (agent_eq_dec ANone t1); [congruence|]. destruct (agent_eq_dec ANone t2); [congruence|]. apply IH2, Hne. }
  split.
  - intros P Q. rewrite Hw. destruct (Hc P Q) as [H _]. lia.
  - intros P Q Hne. rewrite !Hw. apply (Hc P Q). exact Hne.
Qed.

(** ** C55 *)
Theorem C55_no_panic_lemma : forall G I tsum dirichlet unif tpow cfg hash order p1 p2, setting G I tsum dirichlet unif tpow cfg hash order p1 p2 ->
  forall ln nanoid fuel r p, play ln tsum dirichlet unif tpow nanoid cfg hash order p1 p2 fuel r = Panic p ->
  p = PFuel
  \/ (p = PExplicit /\ (pl_type p1 = AMcts \/ pl_type p2 = AMcts) /\ exists s, I s /\ g_winner G s = None /\ g_valid G s = Ok [])
  \/ (p = POverflow /\ g_pr G = Debug /\ 2 ^ 31 <= Z.of_nat fuel).
Proof.
  intros G I tsum dirichlet unif tpow cfg hash order p1 p2 HS ln nanoid fuel r p E.
  destruct (play_cases G I tsum dirichlet unif tpow cfg hash order p1 p2 HS ln nanoid fuel r) as [(res2 & r2 & starts & ws & E2 & H)|[(q & k & E2 & Hk & H)|(E2 & _)]]; rewrite E in E2.
  - discriminate.
  - injection E2 as <-. right. destruct H as [(Ht & -> & H)|[(Ht & -> & H)|(-> & Hd & Hb)]]; [left; auto..|]. right. split; [reflexivity|]. split; [exact Hd|]. lia.
  - injection E2 as <-. left. reflexivity.
Qed.

(** ** C41 *)
(** [n] skipped turns in a row *)
Inductive skips {G} may tpow t1 t2 : nat -> St G -> St G -> Prop :=
| skips_0 s : skips may tpow t1 t2 0 s s
| skips_S n s s' s'' : skips may tpow t1 t2 n s s' -> vskipped may tpow t1 t2 s' s'' -> skips may tpow t1 t2 (S n) s s''.
Lemma shown_small k : Z.of_nat k < 2 ^ 31 -> shown k = Z.of_nat k.
Proof. intros H. unfold shown. rewrite Z.mod_small by lia. lia. Qed.
Lemma hist_limit G may tpow t1 t2 (s0 : St G) k s : vhist may tpow t1 t2 s0 k s -> (399 <= k)%nat -> Z.of_nat k < 2 ^ 31 ->
  exists s1, vhist may tpow t1 t2 s0 399 s1 /\ skips may tpow t1 t2 (k - 399) s1 s.
Proof.
  induction 1 as [Hw|k s s' Hh IH Hsk|k s s' Hh IH Hm Hw Hl]; intros Hk Hb; [lia| |].
  - destruct (Nat.eq_dec (S k) 399) as [E|E].
    + exists s'. rewrite E, Nat.sub_diag. split; [rewrite <- E; eapply v_skip; eassumption|constructor].
    + destruct IH as (s1 & H1 & H2); [lia|lia|]. exists s1. split; [exact H1|]. replace (S k - 399)%nat with (S (k - 399)) by lia. econstructor; eassumption.
  - rewrite (shown_small (S k) Hb) in Hl. assert (E : S k = 399%nat) by lia. exists s'. rewrite E, Nat.sub_diag. split; [|constructor].
    rewrite <- E. eapply v_move; try eassumption. rewrite shown_small by exact Hb. exact Hl.
Qed.
Theorem C41_after_limit_lemma : forall G I tsum dirichlet unif tpow cfg hash order p1 p2, setting G I tsum dirichlet unif tpow cfg hash order p1 p2 ->
  forall ln nanoid r a k a', vs_start nanoid p1 p2 r = Ok a ->
  mfold (fun a j => vs_round ln tsum dirichlet unif tpow cfg hash order p1 p2 j a) (seq 0 k) a = Ok a' -> (399 <= k)%nat -> Z.of_nat k < 2 ^ 31 ->
  forall i s g, In (i, (s, g)) (s_games a') ->
  exists s1, vhist (plays ln tsum dirichlet unif tpow cfg p1 p2) tpow (pl_type p1) (pl_type p2) (vg_init g) 399 s1 /\ skips (plays ln tsum dirichlet unif tpow cfg p1 p2) tpow (pl_type p1) (pl_type p2) (k - 399) s1 s.
Proof.
  intros G I tsum dirichlet unif tpow cfg hash order p1 p2 HS ln nanoid r a k a' E Em Hk Hb i s g Hin.
  destruct (rounds_ok G I tsum dirichlet unif tpow cfg hash order p1 p2 HS ln nanoid r a k a' E Em) as (starts & D & HK & _).
  pose proof (vk_games _ _ _ _ _ _ _ _ _ _ _ _ _ _ HK) as HF. rewrite Forall_forall in HF. destruct (HF _ Hin) as (_ & _ & _ & Hh). apply hist_limit; [exact Hh|exact Hk|exact Hb].
Qed.

Lemma hist_pos G I may tpow t1 t2 (s0 : St G) k s : match_game I -> I s0 -> vhist may tpow t1 t2 s0 k s -> I s /\ g_winner G s = None.
Proof.
  intros HM H0. pose proof (ag_good _ _ (pg_alpha _ _ (mg_play _ _ HM))) as HG. induction 1 as [Hw|k s s' Hh [IH1 IH2] (_ & r & r' & E & _)|k s s' Hh [IH1 IH2] (vm & m & r & r' & Hv & Hin & _ & E) Hw Hl].
  - auto.
  - destruct (good_skip _ _ HG s r IH1) as (s2 & r2 & E2 & HI2). split; [congruence|]. rewrite (pg_skip _ _ (mg_play _ _ HM) _ _ _ _ IH1 E). exact IH2.
  - destruct (good_apply _ _ HG s vm m r IH1 Hv Hin) as (s2 & r2 & E2 & HI2). split; [congruence|exact Hw].
Qed.
Lemma no_skip G I may tpow t1 t2 (s s' : St G) : live G I -> (t1 = AModel \/ t2 = AModel -> forall x, prob01 x -> tpow x = f0 -> x = f0) ->
  I s -> g_winner G s = None -> ~ vskipped may tpow t1 t2 s s'.
Proof.
  intros HLive HPw Hs Hw (_ & r & r' & _ & [Hv|(Ht & ps & (st & n & vm & row & _ & _ & HR & ->) & HF)]); [exact (HLive s Hs Hw Hv)|].
  destruct (vr_some _ _ _ _ _ HR) as (x & Hx & Hnz). apply Hnz, HPw; [unfold on_turn in Ht; destruct (_ =? _); auto|exact (vr_unit _ _ _ _ _ HR x Hx)|].
  rewrite Forall_forall in HF. apply HF, in_map, Hx.
Qed.
Lemma loop_more G ln tsum dirichlet unif tpow cfg hash order p1 p2 : forall f f' j (a b : vstate G), (f <= f')%nat ->
  vs_loop ln tsum dirichlet unif tpow cfg hash order p1 p2 f j a = Ok b -> vs_loop ln tsum dirichlet unif tpow cfg hash order p1 p2 f' j a = Ok b.
Proof.
  induction f as [|f IH]; intros f' j a b Hf E.
  - destruct f'; cbn [vs_loop] in *; destruct (s_games a); [exact E|discriminate|exact E|discriminate].
  - destruct f' as [|f']; [lia|]. cbn [vs_loop] in *. destruct (s_games a); [exact E|]. destruct (vs_round _ _ _ _ _ _ _ _ _ _ _ _); [|discriminate]. cbn [bind] in *.
    apply IH; [lia|exact E].
Qed.
Theorem C41_terminates_lemma : forall G I tsum dirichlet unif tpow cfg hash order p1 p2, setting G I tsum dirichlet unif tpow cfg hash order p1 p2 -> live G I ->
  (pl_type p1 = AModel \/ pl_type p2 = AModel -> forall x, prob01 x -> tpow x = f0 -> x = f0) ->
  forall ln nanoid r, exists res r', forall fuel, (400 <= fuel)%nat -> play ln tsum dirichlet unif tpow nanoid cfg hash order p1 p2 fuel r = Ok (res, r').
Proof.
  intros G I tsum dirichlet unif tpow cfg hash order p1 p2 HS HLive HPw ln nanoid r.
  destruct (play_cases G I tsum dirichlet unif tpow cfg hash order p1 p2 HS ln nanoid 400 r) as [(res & r2 & starts & ws & E & H)|[(q & k & E & Hk & H)|(E & a & a' & Ea & Em & Hne)]].
  - exists res, r2. intros fuel Hf. revert E. unfold play. destruct (vs_start nanoid p1 p2 r) as [a|]; [|discriminate]. cbn [bind].
    destruct (vs_loop ln tsum dirichlet unif tpow cfg hash order p1 p2 400 0 a) as [b|] eqn:El; [|discriminate]. rewrite (loop_more _ _ _ _ _ _ _ _ _ _ _ _ _ _ _ _ Hf El). auto.
  - exfalso. destruct H as [(_ & _ & s & Hs & Hw & Hv)|[(_ & _ & s & Hs & Hw & Hv)|(_ & _ & Hb)]]; [exact (HLive s Hs Hw Hv)..|]. lia.
  - exfalso. destruct (rounds_ok G I tsum dirichlet unif tpow cfg hash order p1 p2 HS ln nanoid r a 400 a' Ea Em) as (starts & D & HK & Hst).
    destruct (s_games a') as [|e l] eqn:Eg; [apply Hne; reflexivity|]. assert (Hin : In e (s_games a')) by (rewrite Eg; left; reflexivity).
    pose proof (vk_games _ _ _ _ _ _ _ _ _ _ _ _ _ _ HK) as HF. rewrite Forall_forall in HF. destruct (HF e Hin) as (_ & _ & _ & Hh).
    assert (H0 : I (vg_init (gm_of G e))).
    { assert (Hs : In (gm_of G e) starts) by (apply (Permutation_in _ (vk_perm _ _ _ _ _ _ _ _ _ _ _ _ _ _ HK)), in_or_app; right; apply in_map, Hin).
      apply In_nth_error in Hs. destruct Hs as [i Hi]. destruct (Hst i _ Hi) as (id & r1 & r2 & _ & Hf).
      destruct (mg_first _ _ (se_game _ _ _ _ _ _ _ _ _ _ _ HS) i r1) as (s & r3 & E3 & HI & _). congruence. }
    destruct (hist_limit _ _ _ _ _ _ _ _ Hh ltac:(lia) ltac:(lia)) as (s1 & Hh1 & Hsk).
    destruct (hist_pos _ _ _ _ _ _ _ _ _ (se_game _ _ _ _ _ _ _ _ _ _ _ HS) H0 Hh1) as [HI1 Hw1].
    change (400 - 399)%nat with 1%nat in Hsk. inversion Hsk as [|n s' s'' s3 Hs0 Hs1]; subst. inversion Hs0; subst.
    revert Hs1. eapply no_skip; eassumption.
Qed.
