(** * BgMirror: mirror symmetry of the rules; absence of dead positions. *)
From Verif Require Import Base BaseFacts BgModel BgSpec BgStep BgGen BgTurn BgReach.
From Coq Require Import Permutation.
Require Import ZifyBool ZifyNat.

(** ** Mirror images at the level of the rules *)
Definition mpos (q : pos) : pos :=
  mkPos (fun s i => men q (opp s) (23 - i)) (fun s => bar q (opp s)) (fun s => off q (opp s)).
Definition mmv (m : mv) : mv :=
  match m with Enter t => Enter (23 - t) | Move f t => Move (23 - f) (23 - t) | Off f => Off (23 - f) end.

Lemma mmv_mmv m : mmv (mmv m) = m.
Proof. destruct m; cbn; f_equal; lia. Qed.
Lemma mpos_mpos q : pos_eq (mpos (mpos q)) q.
Proof.
  split; [|split]; intros; cbn; rewrite opp_opp; auto. f_equal. lia.
Qed.
Lemma mpos_eq a b : pos_eq a b -> pos_eq (mpos a) (mpos b).
Proof. intros (H1 & H2 & H3). split; [|split]; intros; cbn; auto. Qed.
Lemma pip_mirror s i : pip (opp s) (23 - i) = pip s i.
Proof. destruct s; cbn; lia. Qed.
Lemma entry_mirror s d : entry (opp s) d = 23 - entry s d.
Proof. destruct s; cbn; lia. Qed.
Lemma sign_mirror s : sign (opp s) = - sign s.
Proof. destruct s; reflexivity. Qed.

Lemma blocked_mirror q s i : blocked q s i <-> blocked (mpos q) (opp s) (23 - i).
Proof. unfold blocked. cbn. rewrite opp_opp. replace (23 - (23 - i)) with i by lia. reflexivity. Qed.
Lemma all_home_mirror q s : all_home q s -> all_home (mpos q) (opp s).
Proof.
  intros (H1 & H2). split; [cbn; now rewrite opp_opp|]. intros i Hi Hm. cbn in Hm. rewrite opp_opp in Hm.
  unfold on_board in *. specialize (H2 (23 - i) ltac:(lia) Hm). rewrite <- pip_mirror in H2.
  replace (23 - (23 - i)) with i in H2 by lia. exact H2.
Qed.
Lemma legal_mirror s d q m : legal s d q m -> legal (opp s) d (mpos q) (mmv m).
Proof.
  intros H. destruct H as [Hb Hnb|i Hb Hi Hm Ho Hnb|i HA Hi Hm Hp|i HA Hi Hm Hp Hmax]; cbn [mmv].
  - rewrite <- entry_mirror. apply legal_enter; cbn; [now rewrite opp_opp|].
    rewrite entry_mirror, <- blocked_mirror. exact Hnb.
  - replace (23 - (i + sign s * d)) with (23 - i + sign (opp s) * d) by (rewrite sign_mirror; lia).
    assert (E : 23 - i + sign (opp s) * d = 23 - (i + sign s * d)) by (rewrite sign_mirror; lia).
    apply legal_move; cbn; rewrite ?opp_opp; auto.
    + unfold on_board in *; lia.
    + now replace (23 - (23 - i)) with i by lia.
    + rewrite E. unfold on_board in *; lia.
    + rewrite E, <- blocked_mirror. exact Hnb.
  - apply legal_off_exact; [now apply all_home_mirror|unfold on_board in *; lia| |now rewrite pip_mirror].
    cbn. rewrite opp_opp. now replace (23 - (23 - i)) with i by lia.
  - apply legal_off_over; [now apply all_home_mirror|unfold on_board in *; lia| |now rewrite pip_mirror|].
    + cbn. rewrite opp_opp. now replace (23 - (23 - i)) with i by lia.
    + intros j Hj Hmj. cbn in Hmj. rewrite opp_opp in Hmj. rewrite pip_mirror.
      specialize (Hmax (23 - j) ltac:(unfold on_board in *; lia) Hmj). rewrite <- (pip_mirror s (23 - j)) in Hmax.
      replace (23 - (23 - j)) with j in Hmax by lia. exact Hmax.
Qed.
Lemma effect_mirror s q m : pos_eq (mpos (effect q s m)) (effect (mpos q) (opp s) (mmv m)).
Proof.
  assert (EQ : forall i t, (23 - i =? t) = (i =? 23 - t)) by (intros; lia).
  assert (EE : forall t, 23 - (23 - t) = t) by (intros; lia).
  destruct m as [t|f t|f]; (split; [|split]); intros; destruct s, s0; cbn; unfold is_blot; cbn;
    rewrite ?EQ, ?EE; reflexivity.
Qed.
Lemma stuck_mirror s dice q : stuck s dice q -> stuck (opp s) dice (mpos q).
Proof.
  intros H d m Hd HL. apply legal_mirror in HL. rewrite opp_opp in HL.
  apply (H d (mmv m) Hd). eapply legal_eq; [apply mpos_mpos|exact HL].
Qed.
Lemma turn_mirror s dice q ms : turn s dice q ms -> turn (opp s) dice (mpos q) (map mmv ms).
Proof.
  intros H. induction H as [dice q Hs|d1 d d2 q m ms Hm _ IH]; cbn [map].
  - apply play_stop. now apply stuck_mirror.
  - apply play_step; [now apply legal_mirror|].
    eapply play_eq; [| |apply effect_mirror|exact IH]; intros; [eapply legal_eq|eapply stuck_eq]; eauto.
Qed.
Lemma effects_mirror s ms : forall q, pos_eq (mpos (effects q s ms)) (effects (mpos q) (opp s) (map mmv ms)).
Proof.
  induction ms as [|m ms IH]; intros q; [apply pos_eq_refl|]. cbn [map effects fold_left].
  eapply pos_eq_trans; [apply IH|]. apply effects_eq, effect_mirror.
Qed.
Lemma clear_home_mirror q s : clear_home q s -> clear_home (mpos q) (opp s).
Proof.
  intros H i Hi Hp. cbn. rewrite opp_opp. apply H; [unfold on_board in *; lia|].
  rewrite <- pip_mirror. now replace (23 - (23 - i)) with i by lia.
Qed.

Lemma nth_map_opp_rev l i : (i < length l)%nat -> nth i (map Z.opp (rev l)) 0 = - nth (length l - S i) l 0.
Proof.
  intros H. change 0 with (Z.opp 0) at 1. rewrite map_nth. f_equal. rewrite rev_nth by lia. reflexivity.
Qed.
Lemma at_mirror b i : length (pts b) = 24%nat -> on_board i -> at_pt (pts (mirror b)) i = - at_pt (pts b) (23 - i).
Proof.
  intros Hl Hi. unfold on_board in Hi. cbn [mirror pts]. unfold at_pt. rewrite nth_map_opp_rev by lia.
  f_equal. f_equal. lia.
Qed.
Lemma view_mirror b : length (pts b) = 24%nat -> pos_eq (view (mirror b)) (mpos (view b)).
Proof.
  intros Hl. split; [|split].
  - intros s i. cbn [mpos men]. destruct (Z_le_gt_dec 0 i), (Z_le_gt_dec i 23).
    2-4: rewrite !men_view_off by (unfold on_board; lia); reflexivity.
    rewrite !men_view by (unfold on_board; lia). rewrite at_mirror by (auto; unfold on_board; lia).
    rewrite sign_mirror. f_equal. lia.
  - intros []; reflexivity.
  - intros []; reflexivity.
Qed.
Lemma zsum_rev f : zsum (fun i => f (23 - i)) = zsum f.
Proof.
  unfold zsum. change (fold_right Z.add 0) with lsum.
  assert (E : map (fun i => f (23 - i)) (range 0 24) = rev (map f (range 0 24))).
  { rewrite <- map_rev. replace (rev (range 0 24)) with (map (fun i => 23 - i) (range 0 24)) by reflexivity.
    now rewrite map_map. }
  rewrite E. generalize (map f (range 0 24)) as l. induction l as [|x l IH]; [reflexivity|].
  cbn [rev]. rewrite lsum_app, !lsum_cons, IH. cbn. lia.
Qed.
Lemma WF_mirror b : WF b -> WF (mirror b).
Proof.
  intros HW. pose proof (WF_len b HW) as Hl.
  assert (HC : forall s, checkers (view (mirror b)) s = 15).
  { intros s. rewrite (checkers_eq _ _ s (view_mirror b Hl)). rewrite <- (WF_total b (opp s) HW).
    unfold checkers. cbn [mpos men bar off]. rewrite (zsum_rev (men (view b) (opp s))). reflexivity. }
  destruct HW as (_ & H1 & H2 & H3 & H4 & _).
  split; [cbn; now rewrite map_length, rev_length|]. cbn [mirror hit1 hit2 col1 col2]. repeat split; auto.
Qed.
Lemma mirror_mirror b : mirror (mirror b) = b.
Proof.
  destruct b as [l h1 h2 c1 c2]. cbn. unfold mirror. cbn. f_equal.
  rewrite <- map_rev, rev_involutive, map_map. rewrite <- (map_id l) at 2. apply map_ext. intros; lia.
Qed.

(** The same state seen from the other side. *)
Definition mirror_st (st : bg) : bg :=
  mkBg (mirror (bgboard st)) (roll st) (- player st) (second st) (bgid st).

Theorem moves_mirror pr st s mvs mvs' :
  WF (bgboard st) -> rolled (roll st) -> mover st s -> clear_home (view (bgboard st)) s ->
  bg_valid_moves pr st = Ok mvs -> bg_valid_moves pr (mirror_st st) = Ok mvs' ->
  forall m b', In m mvs -> get_next_state pr (bgboard st) m (player st) = Ok b' ->
  exists m', In m' mvs' /\ get_next_state pr (mirror (bgboard st)) m' (- player st) = Ok (mirror b').
Proof.
  intros HW HR HM HC E E' m b' Hin Hb.
  pose proof (WF_len _ HW) as Hl. pose proof (dice_of_die _ HR) as HD.
  destruct (valid_move_applies pr st s mvs m HW HR HM E Hin) as (ms & b2 & Hne & Hms & Hp & Hb2 & HW2 & Hv).
  rewrite Hb2 in Hb. injection Hb as ->.
  apply gplay_turn in Hp; auto; [|now apply WF_nn]. apply turn_mirror in Hp.
  assert (HM' : mover (mirror_st st) (opp s)).
  { unfold mover in *. cbn. rewrite HM, sign_mirror. reflexivity. }
  assert (HW' : WF (bgboard (mirror_st st))) by (cbn; now apply WF_mirror).
  destruct (valid_moves_spec pr (mirror_st st) (opp s) HW' HR HM') as (mvs2 & E2 & _ & Hc & _).
  rewrite E' in E2. injection E2 as <-.
  assert (Hv' : pos_eq (mpos (view (bgboard st))) (view (bgboard (mirror_st st)))).
  { cbn. apply pos_eq_sym, view_mirror. exact Hl. }
  assert (Hp' : gplay (opp s) (dice_of (roll (mirror_st st))) (view (bgboard (mirror_st st))) (map mmv ms)).
  { apply gplay_turn; auto; [now apply WF_nn| |].
    - eapply clear_home_eq; [exact Hv'|]. now apply clear_home_mirror.
    - eapply play_eq; [| |exact Hv'|exact Hp]; intros; [eapply legal_eq|eapply stuck_eq]; eauto. }
  assert (Hne' : map mmv ms <> []) by (destruct ms; [contradiction|discriminate]).
  destruct (Hc (map mmv ms) Hne' Hp') as (m' & Hin' & Em'). exists m'. split; [auto|].
  cbn [bgboard mirror_st player] in Em'. rewrite Em'.
  unfold mover in HM. rewrite HM, <- sign_mirror.
  assert (HPl : seq_playable (opp s) (view (mirror (bgboard st))) (map mmv ms)).
  { eapply gplay_playable; [exact HD|exact Hp']. }
  destruct (get_next_state_refines pr (opp s) (map mmv ms) (mirror (bgboard st)) HW' HPl) as (b3 & E3 & HW3 & Hv3).
  rewrite E3. f_equal. apply view_inj; [now apply WF_len|apply WF_len; now apply WF_mirror|].
  eapply pos_eq_trans; [exact Hv3|]. eapply pos_eq_trans; [apply effects_eq, pos_eq_sym, Hv'|].
  eapply pos_eq_trans; [apply pos_eq_sym, effects_mirror|].
  eapply pos_eq_trans; [|apply pos_eq_sym, view_mirror; now apply WF_len]. apply mpos_eq, pos_eq_sym, Hv.
Qed.

(** ** No dead positions *)
Definition closed (q : pos) (s : side) : Prop := forall i, on_board i -> pip s i <= 6 -> 2 <= men q s i.
Definition dead (q : pos) : Prop :=
  0 < bar q P1 /\ 0 < bar q P2 /\ closed q P1 /\ closed q P2.

Lemma dead_eq a b : pos_eq a b -> dead a -> dead b.
Proof.
  intros (H1 & H2 & _) (A & B & C & D). unfold dead, closed in *. rewrite <- !H2.
  repeat split; auto; intros; rewrite <- H1; auto.
Qed.

(** After any step by [s] the position is not dead. *)
Lemma step_not_dead s d q m : nonneg q -> die d -> loose s d q m -> ~ dead (effect q s m).
Proof.
  intros Hn Hd HL (B1 & B2 & C1 & C2).
  assert (Hbar : 0 < bar (effect q s m) s) by (destruct s; auto).
  assert (Hcl : closed (effect q s m) (opp s)) by (destruct s; auto).
  destruct m as [t|f t|f].
  - pose proof (loose_playable _ _ _ _ Hd HL) as (_ & Ht & Hnb).
    assert (Ht' : t = entry s d).
    { inversion HL as [m' HL'|]; subst. inversion HL'; auto. }
    unfold die in Hd. specialize (Hcl t Ht).
    assert (pip (opp s) t <= 6) as Hp by (subst t; destruct s; cbn; lia).
    specialize (Hcl Hp). cbn in Hcl. rewrite Z.eqb_refl in Hcl.
    assert (side_eqb (opp s) s = false) as E by now destruct s. rewrite E in Hcl.
    unfold is_blot in Hcl. cbn in Hcl. unfold blocked in Hnb. destruct (_ =? 1); lia.
  - assert (bar q s = 0) by (inversion HL as [m' HL'|]; subst; inversion HL'; auto).
    cbn in Hbar. assert (side_eqb s s = true) as E by now destruct s. rewrite E in Hbar. lia.
  - assert (bar q s = 0).
    { inversion HL as [m' HL'|i HA]; subst; [inversion HL' as [| |i HA|i HA]; subst|]; apply HA. }
    cbn in Hbar. lia.
Qed.
Lemma gplay_not_dead s dice q ms :
  nonneg q -> Forall die dice -> ms <> [] -> gplay s dice q ms -> ~ dead (effects q s ms).
Proof.
  intros Hn HD Hne H. apply gplay_sound in H; auto. revert Hn Hne.
  induction H as [|d1 d d2 q m ms Hm Hp IH]; intros Hn Hne; [contradiction|].
  destruct (Forall_remove _ _ _ _ HD) as (HD' & Hd).
  cbn [effects fold_left]. destruct ms as [|m2 ms].
  - cbn. eapply step_not_dead; eauto.
  - apply IH; [auto| |discriminate]. unfold nonneg. apply nonneg_effect; auto. eapply loose_playable; eauto.
Qed.
Theorem reach_not_dead pr st : reach pr st -> ~ dead (view (bgboard st)).
Proof.
  intros H. induction H as [|st st' H IH Ha].
  - intros (B & _). cbn in B. lia.
  - destruct (reach_inv pr st H) as (HW & (s & HM) & HR).
    destruct Ha as [st r|st r st' r' E|st k|st mvs m r st' r' E Hin Ea].
    + destruct (roll_die_spec st r) as (_ & -> & _). exact IH.
    + destruct (skip_spec pr st s r HM) as (st2 & r2 & E2 & Hb & _). rewrite E in E2. injection E2 as <- <-. now rewrite Hb.
    + exact IH.
    + destruct HR as [HR|HR]; [unfold bg_valid_moves in E; rewrite HR in E; discriminate|].
      destruct (valid_move_applies pr st s mvs m HW HR HM E Hin) as (ms & b' & Hne & _ & Hp & Hb & HW' & Hv).
      destruct (apply_spec pr st s m r b' HM (Hb pr)) as (st2 & r2 & E2 & Hb2 & _).
      rewrite Ea in E2. injection E2 as <- <-. rewrite Hb2. intros HD.
      apply (gplay_not_dead s _ _ ms (WF_nn _ HW) (dice_of_die _ HR) Hne Hp).
      eapply dead_eq; eauto.
Qed.

(** searching the dice and the points *)
Lemma die_dec (P : Z -> Prop) (dec : forall d, {P d} + {~ P d}) :
  (exists d, die d /\ P d) \/ (forall d, die d -> ~ P d).
Proof.
  destruct (Exists_dec P (range 1 7) dec) as [H|H].
  - left. apply Exists_exists in H. destruct H as (d & Hd & HP). apply In_range in Hd. exists d. unfold die. split; [lia|auto].
  - right. intros d Hd HP. apply H, Exists_exists. exists d. split; [apply In_range; unfold die in Hd; lia|auto].
Qed.
Lemma point_dec (P : Z -> Prop) (dec : forall i, {P i} + {~ P i}) :
  (exists i, on_board i /\ P i) \/ (forall i, on_board i -> ~ P i).
Proof.
  destruct (Exists_dec P (range 0 24) dec) as [H|H].
  - left. apply Exists_exists in H. destruct H as (d & Hd & HP). apply In_range in Hd. exists d. unfold on_board. split; [lia|auto].
  - right. intros d Hd HP. apply H, Exists_exists. exists d. split; [apply In_range; unfold on_board in Hd; lia|auto].
Qed.

Lemma nblocked_dec q s i : {~ blocked q s i} + {~ ~ blocked q s i}.
Proof. unfold blocked. destruct (Z_le_dec 2 (men q (opp s) i)); [right|left]; lia. Qed.
Lemma far_dec q i : {0 < men q P1 i /\ 6 < pip P1 i} + {~ (0 < men q P1 i /\ 6 < pip P1 i)}.
Proof. destruct (Z_lt_dec 0 (men q P1 i)), (Z_lt_dec 6 (pip P1 i)); [left|right|right|right]; lia. Qed.

Definition can_move (q : pos) (s : side) : Prop := exists d m, die d /\ legal s d q m.

(** on the bar: either some die enters or the opponent's home is closed *)
Lemma bar_cases q s : 0 < bar q s -> can_move q s \/ closed q (opp s).
Proof.
  intros Hb. destruct (die_dec (fun d => ~ blocked q s (entry s d)) (fun d => nblocked_dec q s _)) as [(d & Hd & Hn)|H].
  - left. exists d, (Enter (entry s d)). split; [auto|]. now apply legal_enter.
  - right. intros i Hi Hp. unfold on_board in Hi.
    specialize (H (pip (opp s) i)). unfold die in H.
    assert (E : entry s (pip (opp s) i) = i) by (destruct s; cbn; lia). rewrite E in H.
    assert (1 <= pip (opp s) i <= 6) by (destruct s; cbn in *; lia). unfold blocked in H.
    destruct (Z_le_dec 2 (men q (opp s) i)); [auto|]. exfalso. apply H; auto.
Qed.
Lemma closed_moves q s : nonneg q -> bar q s = 0 -> closed q s ->
  (forall i, men q s i <= 0 \/ men q (opp s) i <= 0) -> can_move q s.
Proof.
  intros Hn Hb Hc Hex. exists 1.
  set (f := match s with P1 => 5 | P2 => 18 end).
  exists (Move f (f + sign s * 1)). split; [unfold die; lia|]. apply legal_move; auto.
  - unfold f, on_board. destruct s; lia.
  - specialize (Hc f). unfold f, on_board in *. destruct s; cbn in *; lia.
  - unfold f, on_board. destruct s; cbn; lia.
  - unfold blocked. specialize (Hc (f + sign s * 1)). specialize (Hex (f + sign s * 1)).
    unfold f, on_board in *. destruct s; cbn in *; lia.
Qed.

Theorem someone_moves q :
  nonneg q -> (forall x, 0 <= bar q x) -> (forall i x, men q x i <= 0 \/ men q (opp x) i <= 0) ->
  ~ dead q -> (exists i, on_board i /\ 0 < men q P1 i) \/ 0 < bar q P1 -> exists s, can_move q s.
Proof.
  intros Hn Hb0 Hex Hnd Hman.
  destruct (Z_lt_ge_dec 0 (bar q P1)) as [B1|B1].
  - destruct (bar_cases q P1 B1) as [H|C2]; [eauto|]. cbn [opp] in C2.
    destruct (Z_lt_ge_dec 0 (bar q P2)) as [B2|B2].
    + destruct (bar_cases q P2 B2) as [H|C1]; [eauto|]. cbn [opp] in C1. exfalso. apply Hnd. repeat split; auto.
    + exists P2. apply closed_moves; auto. pose proof (Hb0 P2). lia.
  - assert (E1 : bar q P1 = 0) by (pose proof (Hb0 P1); lia).
    destruct (Z_lt_ge_dec 0 (bar q P2)) as [B2|B2].
    + destruct (bar_cases q P2 B2) as [H|C1]; [eauto|]. cbn [opp] in C1.
      exists P1. apply closed_moves; auto.
    + assert (E2 : bar q P2 = 0) by (pose proof (Hb0 P2); lia).
      destruct Hman as [(k & Hk & Hmk)|]; [|lia].
      destruct (point_dec (fun i => 0 < men q P1 i /\ 6 < pip P1 i) (far_dec q)) as [(i & Hi & Hmi & Hp)|Hall].
      * cbn [pip] in Hp. unfold on_board in Hi.
        destruct (die_dec (fun d => ~ blocked q P1 (i + sign P1 * d)) (fun d => nblocked_dec q P1 _)) as [(d & Hd & Hnb)|Hbl].
        -- exists P1, d, (Move i (i + sign P1 * d)). split; [auto|]. apply legal_move; auto; unfold on_board, die in *; cbn [sign]; lia.
        -- assert (Hop : forall d, die d -> 2 <= men q P2 (i - d)).
           { intros d Hd. specialize (Hbl d Hd). unfold blocked in Hbl. cbn [opp sign] in Hbl.
             replace (i + -1 * d) with (i - d) in Hbl by lia. lia. }
           exists P2, 1, (Move (i - 2) (i - 2 + sign P2 * 1)). split; [unfold die; lia|].
           pose proof (Hop 1 ltac:(unfold die; lia)) as O1. pose proof (Hop 2 ltac:(unfold die; lia)) as O2.
           apply legal_move; auto; try (unfold on_board; cbn [sign]; lia).
           unfold blocked. cbn [sign opp]. replace (i - 2 + 1 * 1) with (i - 1) by lia.
           specialize (Hex (i - 1) P1). cbn [opp] in Hex. lia.
      * exists P1, (pip P1 k), (Off k).
        assert (HA : all_home q P1).
        { split; [auto|]. intros i Hi Hm. specialize (Hall i Hi). lia. }
        pose proof (proj2 HA k Hk Hmk). unfold on_board in Hk. cbn [pip] in *.
        split; [unfold die; lia|]. apply legal_off_exact; auto.
Qed.

Theorem no_deadlock pr st :
  reach pr st -> bg_check_winner st = None ->
  exists d s, die d /\
    exists m mvs, bg_valid_moves pr (mkBg (bgboard st) (d, d) (sign s) false (bgid st)) = Ok mvs /\ In m mvs.
Proof.
  intros H Hw. destruct (reach_inv pr st H) as (HW & _ & _).
  pose proof (reach_not_dead pr st H) as Hnd.
  destruct (someone_moves (view (bgboard st))) as (s & d & m & Hd & HL).
  - now apply WF_nn.
  - intros x. apply (WF_nonneg _ x HW).
  - intros i x. destruct (Z_le_gt_dec 0 i), (Z_le_gt_dec i 23).
    2-4: left; rewrite men_view_off by (unfold on_board; lia); lia.
    rewrite !men_view by (unfold on_board; lia). destruct x; cbn [opp sign]; lia.
  - exact Hnd.
  - destruct (Z_lt_ge_dec 0 (bar (view (bgboard st)) P1)) as [|Hb]; [now right|left].
    destruct (point_dec (fun i => 0 < men (view (bgboard st)) P1 i) (fun i => Z_lt_dec _ _)) as [(i & Hi & Hm)|Hno].
    + eauto.
    + exfalso. unfold bg_check_winner, check_win_without_player in Hw.
      destruct (Z.eqb_spec (col1 (bgboard st)) 15) as [|Hc]; [discriminate|]. apply Hc.
      pose proof (WF_total _ P1 HW) as HT. unfold checkers in HT.
      pose proof (WF_nonneg _ P1 HW) as (Hm & Hb' & _).
      rewrite (zsum_ext _ (fun _ => 0)) in HT.
      * assert (zsum (fun _ => 0) = 0) as Z0 by reflexivity. cbn [view off] in *. lia.
      * intros i Hi. specialize (Hno i Hi). specialize (Hm i). lia.
  - exists d, s. split; [auto|].
    set (st' := mkBg (bgboard st) (d, d) (sign s) false (bgid st)).
    destruct (valid_moves_spec pr st' s) as (mvs & E & _ & _ & _ & Hn); [exact HW|split; exact Hd|reflexivity|].
    destruct mvs as [|m0 mvs].
    + exfalso. destruct Hn as (Hn & _). specialize (Hn eq_refl).
      apply (Hn d m); [now left|]. cbn [bgboard st']. apply legal_gen; auto. now apply WF_nn.
    + exists m0, (m0 :: mvs). split; [exact E|now left].
Qed.
