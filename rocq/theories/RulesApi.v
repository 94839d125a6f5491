(** * RulesApi: both games are lawful (C79). *)
From Coq Require Import Permutation.
From Verif Require Import Base BaseFacts BgModel BgSpec BgTurn BgReach BgApi BgWitness EncModel EncApi TttModel TttSpec TttApi GameModel GameFacts RulesSpec.
Local Open Scope Z_scope.

Lemma actions_eqb_eq a : forall b, actions_eqb a b = true <-> a = b.
Proof.
  induction a as [|[x y] a IH]; intros [|[u v] b]; cbn [actions_eqb]; try (split; congruence).
  rewrite !andb_true_iff, !Z.eqb_eq, IH. split; [intros [[-> ->] ->]; reflexivity|intros [= -> -> ->]; auto].
Qed.
Lemma C79_tictactoe_lemma : forall pr, lawful (ttt_game pr) ttt_pos.
Proof.
  intros pr. constructor; cbn [ttt_game St Mv g_mv_eqb g_player g_new g_winner g_id g_valid g_encode g_actions g_decode g_empty g_set_id g_tensor g_apply g_skip g_roll g_det].
  - intros m m'. apply Z.eqb_eq.
  - repeat split; reflexivity.
  - intros s ms m [HL _] [= <-] Hm. destruct (proj1 C24_codec_lemma s m HL Hm) as [H1 H2]. exists (ttt_encode m). auto.
  - exists ttt_new, (ttt_valid_moves ttt_new), 8. split; [split; [reflexivity|now left]|]. split; [reflexivity|]. split; [right; vm_compute; do 8 right; left; reflexivity|reflexivity].
  - intros s ms [HL _] [= <-]. exact (proj1 (proj2 C24_codec_lemma) s HL).
  - intros [p b i] k j. auto.
  - intros [p b i] k. repeat (split; [reflexivity|]). intros H. exact H.
  - intros [p b i] k r. cbn zeta. unfold ttt_apply_move, ttt_skip_turn. cbn [tplayer tboard tid]. split; [|split].
    + intros m. destruct (upd b m p); cbn [bind]; [|reflexivity]. destruct (i8 pr (p * -1)); reflexivity.
    + destruct (i8 pr (p * -1)); reflexivity.
    + reflexivity.
  - intros _ s r. split; [|split; [|reflexivity]].
    + intros m s' r' E. destruct (ttt_apply_move pr s m); cbn [bind] in *; [|discriminate E]. injection E as <- <-. auto.
    + intros s' r' E. destruct (ttt_skip_turn pr s); cbn [bind] in *; [|discriminate E]. injection E as <- <-. auto.
  - discriminate.
  - intros [p b i] r [HL HP]. cbn [tplayer tboard] in *. unfold ttt_skip_turn. cbn [tplayer tboard tid]. rewrite i8_ok by lia. cbn [bind]. do 2 eexists. split; [reflexivity|].
    cbn [tplayer]. split; [lia|]. split; [reflexivity|]. split; [exact HL|cbn [tplayer]; lia].
Qed.
Lemma die_range r : forall d r', gen_range 1 6 r = (d, r') -> die d.
Proof. intros d r' E. pose proof (gen_range_spec 1 6 r ltac:(lia)) as H. rewrite E in H. exact H. Qed.
Lemma C79_backgammon_lemma : forall pr, lawful (bg_game pr) bg_pos.
Proof.
  intros pr. constructor; cbn [bg_game St Mv g_mv_eqb g_player g_new g_winner g_id g_valid g_encode g_actions g_decode g_empty g_set_id g_tensor g_apply g_skip g_roll g_det].
  - intros m m'. apply actions_eqb_eq.
  - repeat split; reflexivity.
  - intros s ms m (HW & (d & HM) & HR) E Hm. destruct (C16_round_trip_lemma pr s d ms m HW HR HM E Hm) as ((c & E1 & E2) & _). exists c. split; [exact E1|]. split; [|exact E2].
    destruct (proj1 (C17_codes_lemma pr s d ms HW HR HM E) m Hm) as (c' & E1' & Hc). rewrite E1 in E1'. injection E1' as <-. lia.
  - destruct (C02_no_panic_lemma pr st_lowdie (game_reach _ _ (game_lowdie pr)) (game_rolled pr _ (game_lowdie pr))) as (ms & E & _).
    exists st_lowdie, ms, []. split; [exact (game_pos pr _ (game_lowdie pr))|]. split; [apply E|]. split; [now left|]. apply (proj1 (C16_empty_move_lemma pr st_lowdie)).
  - intros s ms (HW & (d & HM) & HR) E. apply (C06_distinct_lemma pr s d ms HW HR HM E).
  - intros [b rl p sp i] k j. auto.
  - intros [b rl p sp i] k. repeat (split; [reflexivity|]). intros H. exact H.
  - intros [b rl p sp i] k r. cbn zeta. unfold bg_apply_move, bg_skip_turn, bg_roll_die. cbn [bgboard roll player second bgid]. split; [|split].
    + intros m. destruct (get_next_state pr b m p); cbn [bind]; [|reflexivity]. destruct ((fst rl =? snd rl) && negb sp); [reflexivity|]. destruct (i8 pr (p * -1)); cbn [bind]; [|reflexivity].
      destruct (gen_range 1 6 r) as [d0 r1]. destruct (gen_range 1 6 r1) as [d1 r2]. reflexivity.
    + destruct (i8 pr (p * -1)); cbn [bind]; [|reflexivity]. destruct (gen_range 1 6 r) as [d0 r1]. destruct (gen_range 1 6 r1) as [d1 r2]. reflexivity.
    + destruct (gen_range 1 6 r) as [d0 r1]. destruct (gen_range 1 6 r1) as [d1 r2]. reflexivity.
  - discriminate.
  - intros _ s r. unfold bg_roll_die. destruct (gen_range 1 6 r) as [d0 r1] eqn:E0. destruct (gen_range 1 6 r1) as [d1 r2] eqn:E1. do 2 eexists. split; [reflexivity|].
    split; [reflexivity|]. split; [reflexivity|]. intros (HW & HM & _). split; [exact HW|]. split; [exact HM|]. split; [exact (die_range _ _ _ E0)|exact (die_range _ _ _ E1)].
  - intros s r (HW & (d & HM) & _). unfold bg_skip_turn. unfold mover in HM. rewrite i8_ok by (rewrite HM; destruct d; cbn; lia). cbn [bind]. unfold bg_roll_die.
    destruct (gen_range 1 6 r) as [d0 r1] eqn:E0. destruct (gen_range 1 6 r1) as [d1 r2] eqn:E1. do 2 eexists. split; [reflexivity|]. cbn [player bgboard second bgid].
    split; [lia|]. split; [reflexivity|]. split; [exact HW|]. split; [exists (opp d); unfold mover; cbn [player]; rewrite HM; destruct d; reflexivity|].
    split; [exact (die_range _ _ _ E0)|exact (die_range _ _ _ E1)].
Qed.
Lemma C79_empty_code_refuted_lemma : forall pr, (forall s, g_encode (ttt_game pr) s (g_empty (ttt_game pr)) = Ok 10 /\ g_actions (ttt_game pr) = 9)
  /\ forall s, g_encode (bg_game pr) s (g_empty (bg_game pr)) = Ok 1351 /\ g_actions (bg_game pr) = 1352.
Proof. intros pr. split; intros s; (split; [|reflexivity]); [reflexivity|]. apply (proj1 (C16_empty_move_lemma pr s)). Qed.
