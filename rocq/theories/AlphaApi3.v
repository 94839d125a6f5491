(** * AlphaApi3: computed runs of the batched search. *)
From Coq Require Import Permutation.
From Verif Require Import Base F32 Tensor TttModel GameModel McModel McSpec GameFacts AlphaModel AlphaSpec AlphaInst AlphaApi AlphaApi2 Witness.

(** a position with one free cell, so that its only successor is finished *)
Definition one_left : ttt := mkTtt (-1) [-1; 1; -1; -1; 1; 1; 1; -1; 0] 0.
Definition prefs : list Z := [9; 7; 5; 8; 6; 1; 1; 1; 1].
Definition root_visits_of (pr : profile) (x : res (store (ttt_game pr) * rng)) (g : nat) : option f32 :=
  match x with Ok (st, _) => option_map n_visits (nth_error st g) | Panic _ => None end.

Lemma two_games_run pr :
  root_visits_of pr (alpha_mcts_parallel (G := ttt_game pr) tsum0 dir0 (net0 prefs) (cfg0 1 4) [0; 1]%nat [] [ttt_new; one_left] rng0) 0 = Some (f32_of_Z 3)
  /\ root_visits_of pr (alpha_mcts_parallel (G := ttt_game pr) tsum0 dir0 (net0 prefs) (cfg0 1 4) [0; 1]%nat [] [ttt_new; ttt_new] rng0) 0 = Some (f32_of_Z 2).
Proof. destruct pr; vm_compute; auto. Qed.

Theorem C38_contamination_refuted_lemma : forall pr,
  ~ (forall nt cfg (ss : list ttt) order r st r', net_ok (ttt_game pr) nt -> (forall s, In s ss -> ttt_pos s /\ ttt_check_winner s = None) ->
      Permutation order (seq 0 (length ss)) ->
      alpha_mcts_parallel (G := ttt_game pr) tsum0 dir0 nt cfg order [] ss r = Ok (st, r') ->
      forall g n, (g < length ss)%nat -> nth_error st g = Some n -> n_visits n = f32_of_Z (1 + Z.of_nat (iterations cfg))).
Proof.
  intros pr H. destruct (two_games_run pr) as [E _]. unfold root_visits_of in E.
  destruct (alpha_mcts_parallel (G := ttt_game pr) tsum0 dir0 (net0 prefs) (cfg0 1 4) [0; 1]%nat [] [ttt_new; one_left] rng0) as [[st r']|] eqn:Er; [|discriminate E].
  specialize (H (net0 prefs) (cfg0 1 4) [ttt_new; one_left] [0; 1]%nat rng0 st r' (net0_ok (ttt_game pr) prefs eq_refl) ltac:(intros s [<-|[<-|[]]]; (split; [split; [reflexivity|left; reflexivity]|reflexivity]))
    (Permutation_refl [0; 1]%nat) Er 0%nat).
  destruct (nth_error st 0) as [n|]; cbn [option_map] in E; [|discriminate E]. specialize (H n ltac:(cbn; lia) eq_refl). assert (E' : n_visits n = f32_of_Z 3) by congruence. rewrite E' in H. vm_compute in H. discriminate H.
Qed.
