(** * AlphaInst: both games satisfy the hypotheses of the theorems on the network-guided search. *)
From Verif Require Import Base BaseFacts BgModel BgSpec BgTurn BgReach BgApi EncModel EncApi TttModel TttSpec TttApi
  Tensor GameModel McModel McSpec GameFacts AlphaModel AlphaSpec.
From Coq Require Import Sorting.Sorted.
Require Import ZifyBool ZifyNat.

Lemma sorted_nodup l : StronglySorted Z.lt l -> NoDup l.
Proof.
  induction 1 as [|x l HS IH HF]; constructor; [|exact IH].
  intros Hin. rewrite Forall_forall in HF. specialize (HF x Hin). lia.
Qed.

Lemma ttt_alpha pr : alpha_game (ttt_game pr) ttt_pos.
Proof.
  constructor; cbn [ttt_game g_valid g_apply g_skip g_player g_tensor g_encode g_decode g_actions St Mv].
  - apply ttt_good.
  - intros s [_ HP]. lia.
  - exists [3; 3; 3]%nat. intros s [HL _]. destruct (len9 _ HL) as (a0&a1&a2&a3&a4&a5&a6&a7&a8&E).
    rewrite (ttt_tensor_eq _ _ _ _ _ _ _ _ _ _ E). eexists. split; reflexivity.
  - unfold asize. cbn. lia.
  - intros s vm [HL _] [= <-]. apply sorted_nodup, C21_valid_moves_lemma, HL.
  - intros s vm m [HL _] [= <-] Hin. destruct C24_codec_lemma as (H & _). destruct (H s m HL Hin). eauto.
Qed.

Lemma bg_alpha pr : alpha_game (bg_game pr) bg_pos.
Proof.
  constructor; cbn [bg_game g_valid g_apply g_skip g_player g_tensor g_encode g_decode g_actions St Mv].
  - apply bg_good.
  - intros s H. apply bg_pos_player in H. lia.
  - exists [6; 4; 6]%nat. intros s (HW & _ & HR).
    rewrite bg_tensor_eq; [|apply HW|intros E; rewrite E in HR; destruct HR as [H _]; destruct H; cbn in *; lia].
    eexists. split; reflexivity.
  - unfold asize. cbn [bg_game g_actions]. lia.
  - intros s vm (HW & (d & HM) & HR) E. apply (C06_distinct_lemma pr s d vm HW HR HM E).
  - intros s vm m (HW & (d & HM) & HR) E Hin.
    destruct (C16_round_trip_lemma pr s d vm m HW HR HM E Hin) as ((c & Ec & Ed) & _).
    destruct (C17_codes_lemma pr s d vm HW HR HM E) as (H & _). destruct (H m Hin) as (c' & Ec' & Hr).
    replace c' with c in Hr by congruence. exists c. split; [exact Ec|]. split; [lia|exact Ed].
Qed.
