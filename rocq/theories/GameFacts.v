(** * GameFacts: the two games satisfy the hypotheses of the search theorems. *)
From Verif Require Import Base BaseFacts BgModel BgSpec BgTurn BgReach TttModel TttSpec TttApi GameModel McModel McSpec.
Require Import ZifyBool ZifyNat.

(** positions of TicTacToe: a board of nine cells and one of the two players to move *)
Definition ttt_pos (s : ttt) : Prop := length (tboard s) = 9%nat /\ (tplayer s = -1 \/ tplayer s = 1).
(** positions of Backgammon: any reachable-looking board, a player to move, dice rolled *)
Definition bg_pos (s : bg) : Prop := WF (bgboard s) /\ (exists d, mover s d) /\ rolled (roll s).

Lemma ttt_good pr : good (ttt_game pr) ttt_pos.
Proof.
  constructor; cbn [ttt_game g_valid g_apply g_skip St Mv].
  - intros s _. eauto.
  - intros s l m r [HL HP] [= <-] Hin. apply (valid_moves_cell _ _ HL) in Hin. destruct Hin as [Hr _].
    assert (exists s', ttt_apply_move pr s m = Ok s') as [s' E].
    { unfold ttt_apply_move, upd. rewrite HL. destruct (Z.ltb_spec m 0); [lia|].
      destruct (Nat.ltb_spec (Z.to_nat m) 9); [|lia]. cbn [bind]. rewrite i8_ok by lia. cbn. eauto. }
    rewrite E. cbn [bind]. exists s', r. split; [reflexivity|].
    destruct (apply_move_eq _ _ _ _ HL Hr E) as (HL' & _ & Ep & _). split; [exact HL'|].
    apply i8_neg in Ep; [|exact HP]. lia.
  - intros s r [HL HP]. unfold ttt_skip_turn. rewrite i8_ok by lia. cbn. do 2 eexists. split; [reflexivity|].
    split; cbn; [exact HL|lia].
Qed.
Lemma ttt_live pr : live (ttt_game pr) ttt_pos.
Proof.
  intros s _ Hw. cbn in *. destruct (none_has_move s Hw) as [m Hm]. intros [= E]. rewrite E in Hm. exact Hm.
Qed.
Lemma tgame_pos pr n s : tgame pr n s -> ttt_pos s.
Proof. intros H. destruct (tgame_inv _ _ _ H) as (HL & HP & _). split; assumption. Qed.

Lemma bg_good pr : good (bg_game pr) bg_pos.
Proof.
  constructor; cbn [bg_game g_valid g_apply g_skip St Mv].
  - intros s (HW & (d & HM) & HR). destruct (valid_moves_spec pr s d HW HR HM) as (l & E & _). eauto.
  - intros s l m r (HW & (d & HM) & HR) E Hin.
    destruct (valid_move_applies pr s d l m HW HR HM E Hin) as (ms & b' & _ & _ & _ & Hb & HW' & _).
    destruct (apply_spec pr s d m r b' HM (Hb pr)) as (s' & r' & Ea & Hb2 & _ & Hd & Hn).
    exists s', r'. split; [exact Ea|]. unfold bg_pos. rewrite Hb2. split; [exact HW'|].
    destruct (Z.eq_dec (fst (roll s)) (snd (roll s))) as [Ed|Ed], (second s) eqn:Es.
    + destruct Hn as (H1 & _ & H2); [intros (_ & ?); discriminate|]. eauto.
    + destruct Hd as (-> & _); [auto|]. split; [exists d; exact HM|exact HR].
    + destruct Hn as (H1 & _ & H2); [intros (? & _); auto|]. eauto.
    + destruct Hn as (H1 & _ & H2); [intros (? & _); auto|]. eauto.
  - intros s r (HW & (d & HM) & HR). destruct (skip_spec pr s d r HM) as (s' & r' & E & Hb & HM' & _ & HR' & _).
    exists s', r'. split; [exact E|]. unfold bg_pos. rewrite Hb. eauto.
Qed.
Lemma game_pos pr s : game pr s -> bg_pos s.
Proof.
  intros H. destruct (reach_inv _ _ (game_reach _ _ H)) as (HW & HM & _). pose proof (game_rolled _ _ H). unfold bg_pos. auto.
Qed.
Lemma bg_pos_player s : bg_pos s -> -1 <= player s <= 1.
Proof. intros (_ & (d & HM) & _). unfold mover in HM. rewrite HM. destruct d; cbn; lia. Qed.
