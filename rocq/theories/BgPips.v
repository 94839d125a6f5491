(** * BgPips: pip accounting, winners, doubles. *)
From Verif Require Import Base BaseFacts BgModel BgSpec BgStep BgGen BgTurn BgReach.
From Coq Require Import Permutation.
Require Import ZifyBool ZifyNat.

(** ** Pip counts *)
(** Distance travelled by a step: the die, or the distance to bearing off. *)
Definition travelled (s : side) (d : Z) (m : mv) : Z :=
  match m with Off i => pip s i | _ => d end.
Definition is_off (m : mv) : bool := match m with Off _ => true | _ => false end.

Lemma pips_land q s t x : on_board t -> ~ blocked q s t -> (forall i, 0 <= men q (opp s) i) ->
  pips (land q s t) x =
  pips q x + (if side_eqb x s then pip s t else (if is_blot q s t then 25 - pip x t else 0)).
Proof.
  intros Ht Hb Hn. unfold pips. cbn. destruct (side_eqb x s) eqn:E.
  - assert (x = s) as -> by (destruct x, s; cbn in *; congruence).
    rewrite (zsum_point (fun i => pip s i * men q s i) _ t (pip s t) Ht); [lia|].
    intros i Hi. destruct (Z.eqb_spec i t); subst; lia.
  - assert (x = opp s) as -> by (destruct x, s; cbn in *; congruence).
    unfold is_blot. destruct (Z.eqb_spec (men q (opp s) t) 1) as [E1|E1].
    + rewrite (zsum_point (fun i => pip (opp s) i * men q (opp s) i) _ t (- pip (opp s) t) Ht); [lia|].
      intros i Hi. destruct (Z.eqb_spec i t); subst; lia.
    + rewrite (zsum_ext _ (fun i => pip (opp s) i * men q (opp s) i)); [lia|].
      intros i Hi. destruct (i =? t); auto.
Qed.
Lemma pips_leave q s f x : on_board f ->
  pips (leave q s f) x = pips q x - (if side_eqb x s then pip s f else 0).
Proof.
  intros Hf. unfold pips. cbn. destruct (side_eqb x s) eqn:E; cbn [andb].
  - assert (x = s) as -> by (destruct x, s; cbn in *; congruence).
    rewrite (zsum_point (fun i => pip s i * men q s i) _ f (- pip s f) Hf); [lia|].
    intros i Hi. destruct (Z.eqb_spec i f); subst; lia.
  - lia.
Qed.

Lemma side_eqb_refl s : side_eqb s s = true. Proof. now destruct s. Qed.
Lemma side_eqb_opp s : side_eqb (opp s) s = false. Proof. now destruct s. Qed.

Lemma effect_pips s d q m :
  nonneg q -> die d -> loose s d q m ->
  pips (effect q s m) s = pips q s - travelled s d m
  /\ 1 <= travelled s d m <= d
  /\ pips q (opp s) <= pips (effect q s m) (opp s)
  /\ (bar (effect q s m) (opp s) = bar q (opp s) -> pips (effect q s m) (opp s) = pips q (opp s)).
Proof.
  intros Hn Hd HL. pose proof (loose_playable _ _ _ _ Hd HL) as Hp.
  assert (Hpip : forall x i, on_board i -> 1 <= pip x i <= 24) by (intros [] i Hi; unfold on_board in Hi; cbn; lia).
  assert (Hs : forall m, legal s d q m -> match m with Off i => pip s i <= d | _ => True end).
  { intros m' H'. destruct H'; auto; lia. }
  unfold die in Hd. destruct m as [t|f t|f]; cbn [effect travelled playable] in *.
  - destruct Hp as (Hb & Ht & Hnb).
    assert (Ht' : t = entry s d).
    { inversion HL as [m' HL'|]; subst. inversion HL'; auto. }
    rewrite !pips_land by (auto; intros; apply Hn). rewrite side_eqb_refl, side_eqb_opp.
    assert (E1 : pips (leave_bar q s) s = pips q s - 25).
    { unfold pips. cbn. rewrite side_eqb_refl. lia. }
    assert (E2 : pips (leave_bar q s) (opp s) = pips q (opp s)).
    { unfold pips. cbn. rewrite side_eqb_opp. lia. }
    rewrite E1, E2. pose proof (Hpip (opp s) t Ht).
    assert (pip s t = 25 - d) by (subst t; destruct s; cbn; lia).
    split; [lia|]. split; [lia|]. split.
    + destruct (is_blot (leave_bar q s) s t); lia.
    + cbn [land bar leave_bar]. rewrite side_eqb_opp. destruct (is_blot (leave_bar q s) s t); lia.
  - destruct Hp as (Hf & Ht & Hne & Hm & Hnb).
    assert (Ht' : t = f + sign s * d).
    { inversion HL as [m' HL'|]; subst. inversion HL'; auto. }
    assert (Ho : forall i, men (leave q s f) (opp s) i = men q (opp s) i).
    { intros i. cbn. now rewrite side_eqb_opp. }
    rewrite !pips_land; auto; try (unfold blocked; rewrite Ho; exact Hnb); try (intros i; rewrite Ho; apply Hn).
    rewrite !pips_leave by auto. rewrite side_eqb_refl, side_eqb_opp. pose proof (Hpip (opp s) t Ht).
    assert (pip s t = pip s f - d) by (subst t; destruct s; cbn; lia).
    split; [lia|]. split; [lia|]. split.
    + destruct (is_blot (leave q s f) s t); lia.
    + cbn [land bar leave]. rewrite side_eqb_opp. destruct (is_blot (leave q s f) s t); lia.
  - destruct Hp as (Hf & Hm). unfold bear. 
    change (pips _ s) with (pips (leave q s f) s) at 1.
    change (pips (mkPos _ _ _) (opp s)) with (pips (leave q s f) (opp s)).
    rewrite !pips_leave by auto. rewrite side_eqb_refl, side_eqb_opp.
    assert (pip s f <= d).
    { inversion HL as [m' HL'|i]; subst; [exact (Hs _ HL')|auto]. }
    pose proof (Hpip s f Hf). split; [lia|]. split; [lia|]. split; lia.
Qed.

Fixpoint total (l : list Z) : Z := match l with [] => 0 | x :: l' => x + total l' end.
Lemma total_app a b : total (a ++ b) = total a + total b.
Proof. induction a as [|x a IH]; cbn; lia. Qed.
Lemma total_nonneg l : Forall die l -> 0 <= total l.
Proof. induction 1 as [|x l Hx _ IH]; cbn; [lia|]. unfold die in Hx. lia. Qed.

(** Over a whole play. *)
Lemma play_pips (stop : list Z -> pos -> Prop) s dice q ms :
  nonneg q -> Forall die dice -> play (loose s) stop s dice q ms ->
  let q' := effects q s ms in
  Z.of_nat (length ms) <= pips q s - pips q' s <= total dice
  /\ (forallb (fun m => negb (is_off m)) ms = true ->
      exists used rest, Permutation dice (used ++ rest) /\ length used = length ms /\ pips q s - pips q' s = total used)
  /\ pips q (opp s) <= pips q' (opp s)
  /\ bar q (opp s) <= bar q' (opp s)
  /\ (bar q' (opp s) = bar q (opp s) -> pips q' (opp s) = pips q (opp s)).
Proof.
  intros Hn HD H. induction H as [dice q _|d1 d d2 q m ms Hm _ IH]; cbn zeta.
  - cbn [effects fold_left length]. pose proof (total_nonneg _ HD). split; [lia|].
    split; [|repeat split; lia]. intros _. exists [], dice. cbn. split; [reflexivity|]. split; [reflexivity|lia].
  - destruct (Forall_remove _ _ _ _ HD) as (HD' & Hd).
    destruct (effect_pips s d q m Hn Hd Hm) as (E1 & E2 & E3 & E4).
    specialize (IH (nonneg_effect s q m Hn (loose_playable _ _ _ _ Hd Hm)) HD'). cbn zeta in IH.
    destruct IH as (I1 & I2 & I3 & I4 & I5).
    change (effects q s (m :: ms)) with (effects (effect q s m) s ms).
    set (q' := effects (effect q s m) s ms) in *.
    rewrite total_app in *. cbn [total length].
    assert (Hbar : bar q (opp s) <= bar (effect q s m) (opp s)).
    { destruct m; cbn; rewrite ?side_eqb_opp; try lia; destruct (is_blot _ _ _); lia. }
    split; [lia|]. split; [|split; [lia|split; [lia|]]].
    + cbn [forallb]. intros H. apply andb_true_iff in H. destruct H as (H1 & H2).
      destruct (I2 H2) as (used & rest & P & L & T). exists (d :: used), rest. split; [|split].
      * cbn [app]. apply Permutation_sym. etransitivity; [apply perm_skip, Permutation_sym, P|]. apply Permutation_middle.
      * cbn. lia.
      * cbn [total]. destruct m; cbn in H1; try discriminate; cbn [travelled] in *; lia.
    + intros Hb. rewrite I5, E4 by lia. reflexivity.
Qed.

(** ** Winners *)
Lemma wins_iff b s : WF b -> (off (view b) s = 15 <-> (forall i, men (view b) s i = 0) /\ bar (view b) s = 0).
Proof.
  intros HW. pose proof (WF_total b s HW) as HT. unfold checkers in HT.
  pose proof (WF_nonneg b s HW) as (Hm & Hb & Ho). split.
  - intros E. pose proof (zsum_nonneg _ (fun i (_ : on_board i) => Hm i)). split; [|lia].
    intros i. destruct (Z_le_gt_dec 0 i), (Z_le_gt_dec i 23).
    2-4: apply men_view_off; unfold on_board; lia.
    apply (zsum_zero (men (view b) s)); [auto|lia|unfold on_board; lia].
  - intros (E1 & E2). assert (zsum (men (view b) s) = 0); [|lia].
    rewrite (zsum_ext _ (fun _ => 0)); [reflexivity|auto].
Qed.
Lemma no_men_gstuck s dice q : (forall i, men q s i = 0) -> bar q s = 0 -> gstuck s dice q.
Proof.
  intros Hm Hb d m _ Hg. destruct Hg; try lia;
    match goal with H : 0 < men q s ?i |- _ => rewrite Hm in H; lia end.
Qed.

Lemma effect_off s q m x : off (effect q s m) x = off q x \/ (x = s /\ off (effect q s m) x = off q x + 1).
Proof. destruct m; cbn; auto. destruct x, s; cbn; auto. Qed.
Lemma effects_off_opp s ms : forall q, off (effects q s ms) (opp s) = off q (opp s).
Proof.
  induction ms as [|m ms IH]; intros q; [reflexivity|]. cbn [effects fold_left].
  change (fold_left _ ms _) with (effects (effect q s m) s ms). rewrite IH.
  destruct (effect_off s q m (opp s)) as [E|(E & _)]; [auto|]. destruct s; discriminate.
Qed.

(** Moves are applied only while there is no winner. *)
Inductive api_nw (pr : profile) : bg -> bg -> Prop :=
| nw_roll st r : api_nw pr st (fst (bg_roll_die st r))
| nw_skip st r st' r' : bg_skip_turn pr st r = Ok (st', r') -> api_nw pr st st'
| nw_id st k : api_nw pr st (mkBg (bgboard st) (roll st) (player st) (second st) k)
| nw_play st mvs m r st' r' : bg_check_winner st = None ->
    bg_valid_moves pr st = Ok mvs -> In m mvs -> bg_apply_move pr st m r = Ok (st', r') -> api_nw pr st st'.
Inductive reach_nw (pr : profile) : bg -> Prop :=
| reach_nw_new : reach_nw pr bg_new
| reach_nw_api st st' : reach_nw pr st -> api_nw pr st st' -> reach_nw pr st'.
Lemma api_nw_api pr st st' : api_nw pr st st' -> api pr st st'.
Proof. destruct 1; [apply api_roll|eapply api_skip; eauto|apply api_id|eapply api_play; eauto]. Qed.
Lemma reach_nw_reach pr st : reach_nw pr st -> reach pr st.
Proof. induction 1; [constructor|eapply reach_api; [eauto|now apply api_nw_api]]. Qed.

Lemma check_winner_off st : bg_check_winner st =
  if off (view (bgboard st)) P1 =? 15 then Some (-1)
  else if off (view (bgboard st)) P2 =? 15 then Some 1 else None.
Proof. reflexivity. Qed.

Lemma api_nw_cases pr st st' : inv st -> api_nw pr st st' ->
  bgboard st' = bgboard st \/
  (bg_check_winner st = None /\ exists s, off (view (bgboard st')) (opp s) = off (view (bgboard st)) (opp s)).
Proof.
  intros (HW & (s & HM) & HR) H. destruct H as [st r|st r st' r' E|st k|st mvs m r st' r' Hnw E Hin Ea].
  - left. apply (roll_die_spec st r).
  - destruct (skip_spec pr st s r HM) as (st2 & r2 & E2 & Hb & _). left. congruence.
  - now left.
  - right. split; [auto|]. exists s.
    destruct HR as [HR|HR].
    { unfold bg_valid_moves in E. rewrite HR in E. discriminate. }
    destruct (valid_move_applies pr st s mvs m HW HR HM E Hin) as (ms & b' & _ & _ & _ & Hb & HW' & Hv).
    destruct (apply_spec pr st s m r b' HM (Hb pr)) as (st2 & r2 & E2 & Hb2 & _).
    rewrite Ea in E2. injection E2 as <- <-. rewrite Hb2. destruct Hv as (_ & _ & Ho). rewrite Ho.
    apply effects_off_opp.
Qed.

Lemma reach_nw_one pr st : reach_nw pr st ->
  ~ (off (view (bgboard st)) P1 = 15 /\ off (view (bgboard st)) P2 = 15).
Proof.
  intros H. induction H as [|st st' H IH Ha]; [cbn; lia|].
  pose proof (reach_inv _ _ (reach_nw_reach _ _ H)) as HI.
  destruct (api_nw_cases pr st st' HI Ha) as [->|(Hn & s & Ho)]; [auto|].
  rewrite check_winner_off in Hn.
  destruct (Z.eqb_spec (off (view (bgboard st)) P1) 15); [discriminate|].
  destruct (Z.eqb_spec (off (view (bgboard st)) P2) 15); [discriminate|].
  destruct s; cbn [opp] in Ho; lia.
Qed.
Lemma winner_stable pr st st' p : inv st -> api_nw pr st st' ->
  bg_check_winner st = Some p -> bg_check_winner st' = Some p.
Proof.
  intros HI Ha Hw. destruct (api_nw_cases pr st st' HI Ha) as [E|(Hn & _)]; [|congruence].
  unfold bg_check_winner in *. now rewrite E.
Qed.

(** ** Doubles *)
(** Plays with [n] copies of one die. *)
Inductive rplay (s : side) (d : Z) : nat -> pos -> list mv -> Prop :=
| rp_stop n q : (n = O \/ forall m, ~ legal s d q m) -> rplay s d n q []
| rp_step n q m ms : legal s d q m -> rplay s d n (effect q s m) ms -> rplay s d (S n) q (m :: ms).

Lemma app_repeat_inv (d e : Z) l1 l2 n : l1 ++ e :: l2 = repeat d n -> e = d /\ exists k, n = S k /\ l1 ++ l2 = repeat d k.
Proof.
  revert l1; induction n as [|n IH]; intros l1 H; [destruct l1; discriminate|].
  destruct l1 as [|x l1]; cbn in H; injection H as E H.
  - split; [auto|]. exists n. auto.
  - destruct (IH l1 H) as (-> & k & -> & E2). split; [auto|]. exists (S k). split; [auto|]. cbn. congruence.
Qed.
Lemma turn_rplay s d n q ms : turn s (repeat d n) q ms <-> rplay s d n q ms.
Proof.
  split.
  - intros H. remember (repeat d n) as dice eqn:E. revert n E.
    induction H as [dice q Hs|d1 e d2 q m ms Hm _ IH]; intros n E.
    + apply rp_stop. destruct n; [now left|right]. intros m. apply Hs. rewrite E. now left.
    + destruct (app_repeat_inv _ _ _ _ _ E) as (-> & k & -> & E2). apply rp_step; auto.
  - induction 1 as [n q Hn|n q m ms Hm _ IH].
    + apply play_stop. intros e m He. apply repeat_spec in He as He'. subst e.
      destruct Hn as [->|Hn]; [destruct He|apply Hn].
    + apply (play_step _ _ _ [] d (repeat d n)); auto.
Qed.
Lemma rplay_app s d a b ms1 ms2 : forall q,
  rplay s d a q ms1 -> rplay s d b (effects q s ms1) ms2 -> rplay s d (a + b) q (ms1 ++ ms2).
Proof.
  revert a; induction ms1 as [|m ms1 IH]; intros a q H1 H2; inversion H1; subst.
  - cbn [app effects fold_left] in *. match goal with H : _ \/ _ |- _ => destruct H as [->|Hn] end; [exact H2|].
    inversion H2; subst; [apply rp_stop; auto|]. exfalso. eapply Hn; eauto.
  - cbn [app plus]. apply rp_step; auto.
Qed.
Lemma rplay_split s d a b ms : forall q,
  rplay s d (a + b) q ms ->
  exists ms1 ms2, ms = ms1 ++ ms2 /\ rplay s d a q ms1 /\ rplay s d b (effects q s ms1) ms2.
Proof.
  revert ms; induction a as [|a IH]; intros ms q H.
  - exists [], ms. split; [auto|]. split; [apply rp_stop; now left|exact H].
  - inversion H as [n q' Hn|n q' m ms' Hm Hms]; subst.
    + destruct Hn as [Hn|Hn]; [discriminate|]. exists [], []. split; [auto|]. split; apply rp_stop; auto.
    + destruct (IH ms' (effect q s m) Hms) as (ms1 & ms2 & -> & H1 & H2).
      exists (m :: ms1), ms2. split; [auto|]. split; [now apply rp_step|exact H2].
Qed.
Theorem turn_double s d q ms :
  turn s [d; d; d; d] q ms <->
  exists ms1 ms2, ms = ms1 ++ ms2 /\ turn s [d; d] q ms1 /\ turn s [d; d] (effects q s ms1) ms2.
Proof.
  change [d; d; d; d] with (repeat d (2 + 2)). change [d; d] with (repeat d 2). rewrite turn_rplay. split.
  - intros H. destruct (rplay_split s d 2 2 ms q H) as (ms1 & ms2 & E & H1 & H2).
    exists ms1, ms2. rewrite !turn_rplay. auto.
  - intros (ms1 & ms2 & -> & H1 & H2). rewrite turn_rplay in H1, H2. now apply rplay_app.
Qed.
Lemma clear_home_effects s ms : forall q, clear_home q s -> clear_home (effects q s ms) s.
Proof.
  induction ms as [|m ms IH]; intros q H; [exact H|]. cbn [effects fold_left]. apply IH. now apply clear_home_effect.
Qed.
Lemma turn_eq s dice a b ms : pos_eq a b -> turn s dice a ms -> turn s dice b ms.
Proof. intros E. apply play_eq; auto; intros; [eapply legal_eq|eapply stuck_eq]; eauto. Qed.
Lemma turn_nil_stuck s dice q : turn s dice q [] <-> stuck s dice q.
Proof. split; [intros H; inversion H; auto|apply play_stop]. Qed.
Lemma stuck_turn_nil s dice q ms : stuck s dice q -> turn s dice q ms -> ms = [].
Proof.
  intros Hs H. destruct ms as [|m ms]; [reflexivity|]. destruct (play_first _ _ _ _ _ _ _ H) as (d & Hd & HL).
  exfalso. exact (Hs d m Hd HL).
Qed.
