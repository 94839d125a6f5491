(** * TrainLoop: C63, the weights through the learning loop. *)
From Coq Require Import Permutation.
From Verif Require Import Base BaseFacts F32 Tensor SelfModel TrainModel TrainSpec TrainApi.

Section Loop.
  Variable pr : profile.
  Variable W : Type.
  Variable optimise : W -> tensor Z -> tensor f32 -> tensor Z -> res W.
  Variable bs : Z.
  Hypothesis Hbs : 1 <= bs < 2 ^ 64.

  Lemma epochs_ok : forall n i w0 k w ms ms0 r w' ms' r', Z.of_nat (length ms0) < 2 ^ 63 -> Permutation ms ms0 ->
    passes optimise (Z.to_nat bs) ms0 k w0 w ->
    mfold (learn_epoch pr W optimise bs) (seq i n) (w, ms, r) = Ok (w', ms', r') -> passes optimise (Z.to_nat bs) ms0 (k + n) w0 w'.
  Proof.
    induction n as [|n IH]; intros i w0 k w ms ms0 r w' ms' r' HL HP Hk E; cbn [seq mfold] in E.
    - injection E as <- _ _. rewrite Nat.add_0_r. exact Hk.
    - apply bind_ok in E. destruct E as ([[w1 m1] r1] & E1 & E). unfold learn_epoch in E1.
      destruct (C48_batches_lemma pr W optimise bs w ms r Hbs ltac:(rewrite (Permutation_length HP); exact HL)) as (bb & r2 & Hc & Hp & Et).
      rewrite Et in E1. apply bind_ok in E1. destruct E1 as (w2 & E2 & E1). injection E1 as <- <- <-.
      replace (k + S n)%nat with (S k + n)%nat by lia. eapply (IH (S i) w0 (S k) w2 (concat bb) ms0); [exact HL|rewrite Hp; exact HP| |exact E].
      eapply pass_more; [exact Hk|exact Hc|rewrite Hp; exact HP|exact E2].
  Qed.
End Loop.

Lemma serial_runs W (self_play : W -> rng -> res (list frag * rng)) w : forall n i memory r memory' r',
  mfold (serial_self_play W self_play w) (seq i n) (memory, r) = Ok (memory', r') ->
  exists R, length R = n /\ Forall (fun out => exists ra rb, self_play w ra = Ok (out, rb)) R /\ memory' = memory ++ map mem_of (concat R).
Proof.
  induction n as [|n IH]; intros i memory r memory' r' E; cbn [seq mfold] in E.
  - injection E as <- <-. exists []. cbn. rewrite app_nil_r. auto.
  - apply bind_ok in E. destruct E as ([m1 r1] & E1 & E). unfold serial_self_play in E1. apply bind_ok in E1. destruct E1 as ([out r2] & Eo & E1). injection E1 as <- <-.
    destruct (IH _ _ _ _ _ E) as (R & HR & HF & Em). exists (out :: R). split; [cbn; lia|]. split; [constructor; [exists r, r2; exact Eo|exact HF]|].
    rewrite Em. cbn [concat]. rewrite map_app, app_assoc. reflexivity.
Qed.

Theorem C63_parallel_lemma : forall pr W optimise self_play mkdir no_nan gate iterations sp_iterations epochs bs w r w' files r', 1 <= bs < 2 ^ 64 ->
  learn_parallel pr W optimise self_play mkdir no_nan gate iterations sp_iterations epochs bs w r = Ok (w', files, r') ->
  exists ws : list W, length ws = S iterations /\ nth_error ws 0 = Some w /\ nth_error ws iterations = Some w'
    /\ forall l wl wl', (l < iterations)%nat -> nth_error ws l = Some wl -> nth_error ws (S l) = Some wl' ->
       learned optimise self_play sp_iterations epochs (Z.to_nat bs) wl wl'
       /\ no_nan wl' = true /\ exists ra rb, gate wl' l ra = Ok rb.
Proof.
  intros pr W optimise self_play mkdir no_nan gate iterations sp_iterations epochs bs w r w' files r' Hbs E. unfold learn_parallel in E.
  enough (H : forall k l0 w f0 r, mfold (learn_iteration pr W optimise self_play mkdir no_nan gate sp_iterations epochs bs) (seq l0 k) (w, f0, r) = Ok (w', files, r') ->
    exists ws : list W, length ws = S k /\ nth_error ws 0 = Some w /\ nth_error ws k = Some w'
    /\ forall l wl wl', (l < k)%nat -> nth_error ws l = Some wl -> nth_error ws (S l) = Some wl' ->
       learned optimise self_play sp_iterations epochs (Z.to_nat bs) wl wl'
       /\ no_nan wl' = true /\ exists ra rb, gate wl' (l0 + l)%nat ra = Ok rb) by exact (H _ _ _ _ _ E).
  clear w r E. induction k as [|k IH]; intros l0 w f0 r E; cbn [seq mfold] in E.
  - injection E as <- <- <-. exists [w]. cbn. repeat split; lia.
  - apply bind_ok in E. destruct E as ([[w1 f1] r1] & Hit & E). unfold learn_iteration in Hit. apply bind_ok in Hit. destruct Hit as ([[m1 f2] r2] & Hsp & Hit).
    apply bind_ok in Hit. destruct Hit as ([[w2 m2] r3] & Htr & Hit). destruct (no_nan w2) eqn:Hn; [|discriminate Hit].
    apply bind_ok in Hit. destruct Hit as (r4 & Hg & Hit). injection Hit as <- <- <-.
    destruct (IH _ _ _ _ E) as (ws & HL & H0 & Hk & Hs). exists (w :: ws). split; [cbn; lia|]. split; [reflexivity|]. split; [exact Hk|].
    intros [|l] wl wl' Hl E1 E2.
    + change (nth_error ws 0 = Some wl') in E2. rewrite H0 in E2. injection E1 as <-. injection E2 as <-. rewrite Nat.add_0_r. split; [|split; [exact Hn|exists r3, r4; exact Hg]].
      apply learn_self_play_runs in Hsp; [|assumption..]. destruct Hsp as (R & ss & HR & _ & HF & Em & _). exists R. split; [exact HR|]. split; [exact HF|].
      intros HB. cbn [app] in Em. subst m1. refine (epochs_ok pr W optimise bs Hbs epochs 0 w 0 w (map mem_of (concat R)) (map mem_of (concat R)) _ w2 _ _ _ _ _ Htr); [rewrite map_length; exact HB|reflexivity|constructor].
    + replace (l0 + S l)%nat with (S l0 + l)%nat by lia. apply Hs; [lia|exact E1|exact E2].
Qed.

Theorem C63_serial_lemma : forall pr W optimise self_play iterations sp_iterations epochs bs w r w' models r', 1 <= bs < 2 ^ 64 ->
  learn_serial pr W optimise self_play iterations sp_iterations epochs bs w r = Ok (w', models, r') ->
  exists ws : list W, length ws = S iterations /\ nth_error ws 0 = Some w /\ nth_error ws iterations = Some w'
    /\ models = combine (seq 0 iterations) (tl ws)
    /\ forall l wl wl', (l < iterations)%nat -> nth_error ws l = Some wl -> nth_error ws (S l) = Some wl' ->
       learned optimise self_play sp_iterations epochs (Z.to_nat bs) wl wl'.
Proof.
  intros pr W optimise self_play iterations sp_iterations epochs bs w r w' models r' Hbs E. unfold learn_serial in E.
  enough (H : forall k l0 w f0 r, mfold (serial_iteration pr W optimise self_play sp_iterations epochs bs) (seq l0 k) (w, f0, r) = Ok (w', models, r') ->
    exists ws : list W, length ws = S k /\ nth_error ws 0 = Some w /\ nth_error ws k = Some w' /\ models = f0 ++ combine (seq l0 k) (tl ws)
    /\ forall l wl wl', (l < k)%nat -> nth_error ws l = Some wl -> nth_error ws (S l) = Some wl' ->
       learned optimise self_play sp_iterations epochs (Z.to_nat bs) wl wl') by exact (H _ _ _ _ _ E).
  clear w r E. induction k as [|k IH]; intros l0 w f0 r E; cbn [seq mfold] in E.
  - injection E as <- <- <-. exists [w]. cbn. rewrite app_nil_r. repeat split; lia.
  - apply bind_ok in E. destruct E as ([[w1 f1] r1] & Hit & E). unfold serial_iteration in Hit. apply bind_ok in Hit. destruct Hit as ([m1 r2] & Hsp & Hit).
    apply bind_ok in Hit. destruct Hit as ([[w2 m2] r3] & Htr & Hit). injection Hit as <- <- <-.
    destruct (IH _ _ _ _ E) as (ws & HL & H0 & Hk & Hm & Hs). exists (w :: ws). split; [cbn; lia|]. split; [reflexivity|]. split; [exact Hk|]. split.
    { rewrite Hm, <- app_assoc. f_equal. destruct ws as [|y ws]; [discriminate|]. injection H0 as ->. reflexivity. }
    intros [|l] wl wl' Hl E1 E2.
    + change (nth_error ws 0 = Some wl') in E2. rewrite H0 in E2. injection E1 as <-. injection E2 as <-.
      apply serial_runs in Hsp. destruct Hsp as (R & HR & HF & Em). exists R. split; [exact HR|]. split; [exact HF|].
      intros HB. cbn [app] in Em. subst m1. refine (epochs_ok pr W optimise bs Hbs epochs 0 w 0 w (map mem_of (concat R)) (map mem_of (concat R)) _ w2 _ _ _ _ _ Htr); [rewrite map_length; exact HB|reflexivity|constructor].
    + apply (Hs l); [lia|exact E1|exact E2].
Qed.
