(** * SelfApi2: stored policies, drawn games and computed runs of self-play (C45-C47). *)
From Coq Require Import Permutation.
From Verif Require Import Base BaseFacts F32 F32Facts RoundFacts DivError Tensor TttModel BgModel GameModel McModel McSpec McProof AlphaCount GameFacts
  AlphaModel AlphaSpec AlphaInst SampleModel VisitSpec SelfModel SelfSpec SelfProof SelfApi Witness AlphaApi3 AlphaApi2 VisitFacts.
Require Import ZifyBool ZifyNat.

(** ** C46: drawn games *)
Lemma ttt_history_players pr s0 h s : seq_history (G := ttt_game pr) s0 h s -> tplayer s0 = -1 \/ tplayer s0 = 1 ->
  (tplayer s = -1 \/ tplayer s = 1) /\ forall f, In f h -> fr_outcome f = -1 \/ fr_outcome f = 1.
Proof.
  intros H H0. induction H as [|h s s' r r' Hh IH E|h s m ps x s' r r' Hh IH Ex E].
  - split; [exact H0|intros f []].
  - destruct IH as [Hp Hf]. split; [|exact Hf]. cbn [ttt_game g_skip] in E. unfold ttt_skip_turn in E.
    destruct Hp as [Hp|Hp]; rewrite Hp in E; destruct pr; vm_compute in E; injection E as <- <-; auto.
  - destruct IH as [Hp Hf]. split.
    + cbn [ttt_game g_apply] in E. unfold ttt_apply_move in E. destruct (upd _ _ _); [|discriminate E]. cbn [bind] in E.
      destruct Hp as [Hp|Hp]; rewrite Hp in E; destruct pr; vm_compute in E; injection E as <- <-; auto.
    + intros f Hin. apply in_app_or in Hin. destruct Hin as [Hin|[<-|[]]]; [auto|]. exact Hp.
Qed.
Theorem C46_draw_lemma : forall pr unif tpow search fuel r out r', self_play (G := ttt_game pr) unif tpow search fuel r = Ok (out, r') ->
  exists s, (exists h, seq_history (G := ttt_game pr) ttt_new h s /\ length out = length h) /\ out <> [] /\
    (ttt_check_winner s = Some 0 -> forall f, In f out -> fr_outcome f = -1).
Proof.
  intros pr unif tpow search fuel r out r' H. destruct (C46_labels_lemma _ _ _ _ _ _ _ _ H) as (s0 & r0 & h & s & w & Hf & Hh & Hw & Hne & HL & Hlab).
  cbn [fresh ttt_game g_det g_new] in Hf. injection Hf as <- _. exists s. split; [exists h; auto|]. split; [destruct out; [destruct h; [congruence|discriminate HL]|discriminate]|].
  intros Hd f Hin. cbn [ttt_game g_winner] in Hw. assert (w = 0) by congruence. subst w.
  destruct (ttt_history_players pr _ _ _ Hh ltac:(left; reflexivity)) as [_ Hpl].
  apply In_nth_error in Hin. destruct Hin as [i Ei]. destruct (nth_error_ex _ h i) as [f0 Ef0]; [rewrite <- HL; eapply nth_error_lt; exact Ei|].
  destruct (Hlab i f0 Ef0) as (g & Eg & _ & _ & _ & Hg). replace f with g by congruence. apply Hg. apply nth_error_In in Ef0. destruct (Hpl f0 Ef0) as [->| ->]; discriminate.
Qed.

(** a search that plays a fixed drawn game *)
Definition draw_moves : list nat := [0; 4; 2; 1; 7; 6; 3; 5; 8]%nat.
Definition draw_search (s : ttt) (r : rng) : res (option (list f32) * rng) :=
  let k := length (filter (fun c => negb (c =? 0)) (tboard s)) in
  Ok (Some (map (fun i => if (i =? nth k draw_moves 0)%nat then f1 else f0) (seq 0 9)), r).
Lemma draw_run pr : match self_play (G := ttt_game pr) unif0 pow1 draw_search 20 rng0 with
  | Ok (out, _) => map fr_outcome out = [-1; -1; -1; -1; -1; -1; -1; -1; -1]
  | Panic _ => False
  end.
Proof. destruct pr; vm_compute; reflexivity. Qed.

(** ** C45: the limit and a win in the same round *)
Lemma both_run_eq pr : match self_play_parallel (G := ttt_game pr) tsum0 dir0 unif0 pow1 (net0 prefs) (cfg0 3 6) hash0 order0 7 1 rng0 with
  | Ok (out, _) => map fr_outcome out = [0; 0; 0; 0; 0; 0; 1; -1; 1; -1; 1; -1; 1]
      /\ map fr_state (firstn 6 out) = map fr_state (firstn 6 (skipn 6 out)) /\ map fr_ps (firstn 6 out) = map fr_ps (firstn 6 (skipn 6 out))
  | Panic _ => False
  end.
Proof. destruct pr; vm_compute; auto. Qed.
Theorem C45_duplicates_refuted_lemma : forall pr,
  ~ (forall tsum, tsum_ok tsum -> forall dirichlet, (forall k a rr, length (fst (dirichlet k a rr)) = k) ->
     forall unif, unif_ok unif -> forall tpow, pow_ok tpow -> forall nt, net_ok (ttt_game pr) nt ->
     forall cfg, SFltb f0 (dir_alpha cfg) = true -> (0 < iterations cfg)%nat ->
     forall hash, (forall j (m : list (nat * ttt)), Permutation (hash j m) m) ->
     forall order, (forall j n, Permutation (order j n) (seq 0 n)) ->
     forall fuel r out r', self_play_parallel (G := ttt_game pr) tsum dirichlet unif tpow nt cfg hash order fuel 1 r = Ok (out, r') ->
     forall f g, In f out -> In g out -> fr_state f = fr_state g -> fr_ps f = fr_ps g -> fr_outcome f = fr_outcome g).
Proof.
  intros pr H. pose proof (both_run_eq pr) as E.
  destruct (self_play_parallel _ _ _ _ _ _ _ _ _ _ _) as [[out r']|] eqn:Er; [|exact E]. destruct E as (E1 & E2 & E3).
  assert (Hout : exists a b, In a out /\ In b out /\ fr_state a = fr_state b /\ fr_ps a = fr_ps b /\ fr_outcome a = 0 /\ fr_outcome b = 1).
  { destruct out as [|a [|? [|? [|? [|? [|? [|b out]]]]]]]; try discriminate E1. exists a, b. cbn in E1, E2, E3. injection E1 as Ha _ _ _ _ _ Hb _. injection E2 as Es _. injection E3 as Ep _.
    repeat split; auto; [left; reflexivity|do 6 right; left; reflexivity]. }
  destruct Hout as (a & b & Ha & Hb & Hs & Hp & Oa & Ob).
  specialize (H tsum0 tsum0_ok dir0 dir0_len unif0 unif0_ok pow1 pow1_ok (net0 prefs) (net0_ok (ttt_game pr) prefs eq_refl) (cfg0 3 6) eq_refl ltac:(cbn; lia)
    hash0 (fun j m => Permutation_refl m) order0 (fun j n => Permutation_refl _) _ _ _ _ Er a b Ha Hb Hs Hp). congruence.
Qed.

(** ** C47 *)
(** [pow] with a positive exponent is monotone *)
Definition pow_mono (tpow : f32 -> f32) : Prop := forall x y, unit32 x -> unit32 y -> SFleb x y = true -> SFleb (tpow x) (tpow y) = true.
(** what the stored policy [ps] of a position [s] is: the shares [ks] of the visits by move
    code, each rounded and raised to the power, not normalised again *)
Record stored_policy {G} (tpow : f32 -> f32) (s : St G) (ps : list f32) (ks : list Z) : Prop := {
  sp_length : length ps = asize G /\ length ks = asize G;
  sp_visits : (forall k, In k ks -> 0 <= k) /\ 0 < zsum ks < 2 ^ 24;
  sp_codes : exists vm, g_valid G s = Ok vm /\ forall j, nth j ks 0 <> 0 -> exists m, In m vm /\ g_encode G s m = Ok (Z.of_nat j);
  sp_entry : forall j, (j < asize G)%nat -> nth j ps f0 = tpow (fdiv (f32_of_Z (nth j ks 0)) (f32_of_Z (zsum ks)));
  (** the support does not grow, and does not shrink unless the power underflows *)
  sp_support : forall j, nth j ps f0 <> f0 -> nth j ks 0 <> 0;
  sp_support' : (forall x, unit32 x -> tpow x = f0 -> x = f0) -> forall j, nth j ks 0 <> 0 -> nth j ps f0 <> f0;
  (** more visits never get less weight *)
  sp_order : pow_mono tpow -> forall i j, (i < asize G)%nat -> (j < asize G)%nat -> nth i ks 0 <= nth j ks 0 -> SFleb (nth i ps f0) (nth j ps f0) = true;
  (** at temperature 1 the weights sum to one up to 2^-23 *)
  sp_sum : (forall x, tpow x = x) -> Z.abs (zsum (map units32 ps) - 2 ^ 149) <= 2 ^ 126
}.

Lemma target_stored G tpow (s : St G) ps : pow_ok tpow -> target tpow s ps -> exists ks, stored_policy tpow s ps ks.
Proof.
  intros [Hp0 Hpu] (st & n & vm & row & Hs & Hv & HVR & ->). destruct (vr_share _ _ _ _ _ HVR) as (ks & K1 & K2 & K3 & K4 & K5 & K6). exists ks.
  pose proof (vr_len _ _ _ _ _ HVR) as HL.
  assert (Hle : forall k, In k ks -> 0 <= k <= zsum ks) by (intros k Hk; split; [auto|apply zsum_in; assumption]).
  assert (Hnr : forall j, nth j (map tpow row) f0 = tpow (nth j row f0)) by (intros j; rewrite <- Hp0 at 1; apply map_nth).
  assert (Hrow : forall j, (j < asize G)%nat -> nth j row f0 = fdiv (f32_of_Z (nth j ks 0)) (f32_of_Z (zsum ks))).
  { intros j Hj. rewrite K4. rewrite nth_indep with (d' := fdiv (f32_of_Z 0) (f32_of_Z (zsum ks))) by (rewrite map_length; lia).
    apply (map_nth (fun k => fdiv (f32_of_Z k) (f32_of_Z (zsum ks)))). }
  assert (Hn : forall j, (j < asize G)%nat -> 0 <= nth j ks 0 <= zsum ks) by (intros j Hj; apply Hle, nth_In; lia).
  assert (Hu : forall j, unit32 (nth j row f0)).
  { intros j. destruct (Nat.lt_ge_cases j (asize G)) as [Hj|Hj]; [rewrite Hrow by exact Hj; apply fdiv_unit; [apply Hn, Hj|lia]|]. rewrite nth_overflow by lia. left. reflexivity. }
  constructor.
  - rewrite map_length. auto.
  - auto.
  - exists vm. split; [exact Hv|]. intros j Hj. destruct (vr_off _ _ _ _ _ HVR j) as (m & Hm & Em & _); [rewrite K5; exact Hj|]. rewrite Hs in Em. eauto.
  - intros j Hj. rewrite Hnr, Hrow by exact Hj. reflexivity.
  - intros j Hj Hz. apply Hj. rewrite Hnr. apply K5 in Hz. rewrite Hz. exact Hp0.
  - intros Hinj j Hj Hz. apply Hj, K5. apply Hinj; [apply Hu|]. rewrite <- Hnr. exact Hz.
  - intros Hm i j Hi Hj Hij. rewrite !Hnr. apply Hm; [apply Hu|apply Hu|]. rewrite !Hrow by assumption. apply fdiv_mono; [|apply Hn, Hj|lia]. pose proof (Hn i Hi). lia.
  - intros Hid. rewrite (map_ext _ _ Hid), map_id, K4, map_map. pose proof (shares_error ks (zsum ks) Hle K3) as He.
    set (S := zsum (map _ ks)) in *. change (2 ^ 149) with (2 ^ 23 * 2 ^ 126) in *. assert (HV : 0 < 2 ^ 126) by lia. set (V := 2 ^ 126) in *. clearbody S V.
    replace (S * zsum ks - zsum ks * (2 ^ 23 * V)) with (zsum ks * (S - 2 ^ 23 * V)) in He by ring. rewrite Z.abs_mul, (Z.abs_eq (zsum ks)) in He by lia.
    apply (Z.mul_le_mono_pos_l _ _ (zsum ks)); [lia|exact He].
Qed.

Lemma history_targets G tpow (s0 : St G) h k s : history tpow s0 h k s -> forall f, In f h -> exists s1, target tpow s1 (fr_ps f) /\ g_tensor G s1 = Ok (fr_state f).
Proof.
  induction 1 as [|h k s s' Hh IH Hs Hw|h k s ps x s' Hh IH Hm Hw]; intros f Hf; [destruct Hf|auto|].
  apply in_app_or in Hf. destruct Hf as [Hf|[<-|[]]]; [auto|]. destruct Hm as (vm & m & c & r & r' & Ht & _ & _ & _ & _ & Hx & _). cbn. eauto.
Qed.
Lemma block_targets G tpow limit (s0 : St G) b f : block tpow limit s0 b -> In f b -> exists s, target tpow s (fr_ps f) /\ g_tensor G s = Ok (fr_state f).
Proof.
  intros Hb Hf.
  assert (Hlast : forall h k s ps x s', history tpow s0 h k s -> moved tpow s ps x s' -> forall f0, In f0 (h ++ [mkFrag (g_player G s) ps x]) ->
    exists s1, target tpow s1 (fr_ps f0) /\ g_tensor G s1 = Ok (fr_state f0)).
  { intros h k s ps x s' Hh (vm & m & c & r & r' & Ht & _ & _ & _ & _ & Hx & _) f0 Hf0. apply in_app_or in Hf0. destruct Hf0 as [Hf0|[<-|[]]]; [eapply history_targets; eassumption|cbn; eauto]. }
  assert (Hmap : forall g (h : list frag), (forall f0, fr_ps (g f0) = fr_ps f0 /\ fr_state (g f0) = fr_state f0) -> In f (map g h) -> exists f0, In f0 h /\ fr_ps f = fr_ps f0 /\ fr_state f = fr_state f0).
  { intros g h Hg Hin. apply in_map_iff in Hin. destruct Hin as (f0 & <- & Hin). exists f0. destruct (Hg f0). auto. }
  destruct Hb as [h k s ps x s' w Hh Hk Hm Hw|h s s' Hh Hc|h s ps x s' w Hh Hm Hw].
  - apply Hmap in Hf; [|auto]. destruct Hf as (f0 & Hin & -> & ->). eapply Hlast; eassumption.
  - apply Hmap in Hf; [|auto]. destruct Hf as (f0 & Hin & -> & ->). eapply history_targets; eassumption.
  - apply in_app_or in Hf. destruct Hf as [Hf|Hf]; (apply Hmap in Hf; [|auto]); destruct Hf as (f0 & Hin & -> & ->); [eapply history_targets; eassumption|eapply Hlast; eassumption].
Qed.

Theorem C47_policies_lemma : forall G I, play_game (G := G) I ->
  forall tsum, tsum_ok tsum -> forall dirichlet, (forall k a rr, length (fst (dirichlet k a rr)) = k) ->
  forall unif, unif_ok unif -> forall tpow, pow_ok tpow -> forall nt, net_ok G nt ->
  forall cfg, SFltb f0 (dir_alpha cfg) = true -> (0 < iterations cfg)%nat ->
  forall hash, (forall j (m : list (nat * St G)), Permutation (hash j m) m) ->
  forall order, (forall j n, Permutation (order j n) (seq 0 n)) ->
  forall n fuel r out r', 1 + Z.of_nat (iterations cfg) * Z.of_nat (S n) <= 2 ^ 24 ->
  self_play_parallel tsum dirichlet unif tpow nt cfg hash order fuel n r = Ok (out, r') ->
  forall f, In f out -> exists s ks, g_tensor G s = Ok (fr_state f) /\ stored_policy tpow s (fr_ps f) ks.
Proof.
  intros G I HP tsum HS dir HD unif HU tpow HPow nt HN cfg HA HIt hash HH order HO n fuel r out r' HB Hrun f Hf.
  destruct (C45_samples_lemma G I HP tsum HS dir HD unif HU tpow HPow nt HN cfg HA HIt hash HH order HO n (S (fuel + sim_limit cfg)) r HB ltac:(lia))
    as (games & out' & r2 & parts & Erun & _ & _ & Eo & _ & Hb).
  assert (Hmono : forall fu j a x, sp_loop (G := G) tsum dir unif tpow nt cfg hash order fu j a = Ok x -> forall fu', (fu <= fu')%nat -> sp_loop tsum dir unif tpow nt cfg hash order fu' j a = Ok x).
  { clear. induction fu as [|fu IH]; intros j a x H fu' Hle; cbn [sp_loop] in H.
    - destruct (sp_states a) eqn:E; [|discriminate H]. destruct fu'; cbn [sp_loop]; rewrite E; exact H.
    - destruct fu' as [|fu']; [lia|]. cbn [sp_loop]. destruct (sp_states a); [exact H|]. destruct (sp_round _ _ _ _ _ _ _ _ j a); [|discriminate H]. cbn [bind] in *. apply IH; [exact H|lia]. }
  assert (E : out' = out).
  { unfold self_play_parallel in Hrun, Erun. destruct (fresh_games 0 n r) as [[l r1]|]; [|discriminate Hrun]. cbn [bind] in *.
    rewrite (Hmono _ _ _ _ Hrun (S (fuel + sim_limit cfg)) ltac:(lia)) in Erun. congruence. }
  rewrite <- E, Eo in Hf. apply in_concat in Hf. destruct Hf as (b & Hbin & Hf). apply in_map_iff in Hbin. destruct Hbin as ([i b'] & Heq & Hin). cbn in Heq. subst b'.
  destruct (Hb i b Hin) as (s0 & _ & Hblock). destruct (block_targets _ _ _ _ _ _ Hblock Hf) as (s & Ht & Hx). destruct (target_stored _ _ _ _ HPow Ht) as (ks & Hk). eauto.
Qed.

(** temperature 1/2: the power is squaring *)
Lemma half_run pr : match self_play_parallel (G := ttt_game pr) tsum0 dir0 unif0 (fun x => fmul x x) (net0 prefs) (cfg0 2 8) hash0 order0 9 1 rng0 with
  | Ok (out, _) => map (fun f => zsum (map units32 (fr_ps f))) out = [2 ^ 148; 2 ^ 148; 2 ^ 148; 2 ^ 148; 2 ^ 149; 2 ^ 148; 2 ^ 149]
  | Panic _ => False
  end.
Proof. destruct pr; vm_compute; reflexivity. Qed.
Theorem C47_half_refuted_lemma : forall pr,
  ~ (forall nt, net_ok (ttt_game pr) nt -> forall cfg, SFltb f0 (dir_alpha cfg) = true -> (0 < iterations cfg)%nat ->
     forall fuel n r out r', 1 + Z.of_nat (iterations cfg) * Z.of_nat (S n) <= 2 ^ 24 ->
     self_play_parallel (G := ttt_game pr) tsum0 dir0 unif0 (fun x => fmul x x) nt cfg hash0 order0 fuel n r = Ok (out, r') ->
     forall f, In f out -> Z.abs (zsum (map units32 (fr_ps f)) - 2 ^ 149) <= 2 ^ 126).
Proof.
  intros pr H. pose proof (half_run pr) as E. destruct (self_play_parallel _ _ _ _ _ _ _ _ _ _ _) as [[out r']|] eqn:Er; [|exact E].
  destruct out as [|f out]; [discriminate E|]. cbn [map] in E. injection E as Ef _.
  specialize (H (net0 prefs) (net0_ok (ttt_game pr) prefs eq_refl) (cfg0 2 8) eq_refl ltac:(cbn; lia) 9%nat 1%nat rng0 (f :: out) r' ltac:(cbn; lia) Er f (or_introl eq_refl)).
  rewrite Ef in H. vm_compute in H. apply H. reflexivity.
Qed.
