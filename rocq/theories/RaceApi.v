(** * RaceApi: races end (C80). *)
From Coq Require Import Permutation.
From Verif Require Import Base BaseFacts BgModel BgSpec BgStep BgGen BgTurn BgReach BgPips BgApi BgWitness GameModel GameFacts McModel McSpec McApi RaceSpec.
Local Open Scope Z_scope.

Lemma passed_eq a b : pos_eq a b -> passed a -> passed b.
Proof. intros (H1 & H2 & _) (A & B & C). unfold passed. rewrite <- !H2. split; [exact A|]. split; [exact B|]. intros i j Hi Hj. rewrite <- !H1. apply C; assumption. Qed.
(** the mover's man on [i] and an opposing one on [j] *)
Lemma passed_side q s i j : passed q -> on_board i -> on_board j -> 0 < men q s i -> 0 < men q (opp s) j -> 0 < sign s * (i - j).
Proof. intros (_ & _ & H) Hi Hj Hm Hn. destruct s; cbn [sign opp] in *; [specialize (H i j Hi Hj Hm Hn)|specialize (H j i Hj Hi Hn Hm)]; lia. Qed.
Lemma passed_bar q s : passed q -> bar q s = 0.
Proof. intros (H1 & H2 & _). destruct s; assumption. Qed.
Lemma passed_intro q s : bar q s = 0 -> bar q (opp s) = 0 -> (forall i j, on_board i -> on_board j -> 0 < men q s i -> 0 < men q (opp s) j -> 0 < sign s * (i - j)) -> passed q.
Proof.
  intros H1 H2 H. unfold passed. destruct s; cbn [sign opp] in *; (split; [assumption|]; split; [assumption|]); intros i j Hi Hj Hm Hn;
    [specialize (H i j Hi Hj Hm Hn)|specialize (H j i Hj Hi Hn Hm)]; lia.
Qed.
Lemma passed_effect s d q m : nonneg q -> die d -> passed q -> loose s d q m -> passed (effect q s m).
Proof.
  intros Hn Hd HP HL. pose proof (passed_bar q s HP) as Hb. pose proof (passed_bar q (opp s) HP) as Hb'. unfold die in Hd.
  assert (HM : forall i, on_board i -> 0 < men q s i -> (exists t, m = Move i t /\ t = i + sign s * d /\ on_board t) \/ m = Off i -> passed (effect q s m)).
  { intros i Hi Hm [(t & -> & Et & Ht)| ->].
    - assert (H0 : men q (opp s) t = 0).
      { pose proof (Hn (opp s) t). destruct (Z.eq_dec (men q (opp s) t) 0) as [E|E]; [exact E|]. pose proof (passed_side q s i t HP Hi Ht Hm ltac:(lia)). destruct s; cbn [sign] in *; lia. }
      apply (passed_intro _ s).
      + cbn [effect land leave bar]. rewrite side_eqb_refl. exact Hb.
      + cbn [effect land leave bar]. rewrite side_eqb_opp. unfold is_blot. cbn [leave men]. rewrite side_eqb_opp. cbn [andb]. rewrite H0. exact Hb'.
      + intros x y Hx Hy. cbn [effect land leave men]. rewrite side_eqb_refl, side_eqb_opp. unfold is_blot. cbn [leave men]. rewrite ?side_eqb_opp. cbn [andb]. rewrite H0. cbn [Z.eqb].
        intros Mx My. assert (My' : 0 < men q (opp s) y) by (destruct (Z.eqb_spec y t) as [->|]; lia).
        destruct (Z.eqb_spec x t) as [->|Nx].
        * pose proof (passed_side q s i y HP Hi Hy Hm My'). destruct s; cbn [sign] in *; lia.
        * apply (passed_side q s x y HP Hx Hy); [|exact My']. destruct (Z.eqb_spec x i) as [->|]; lia.
    - apply (passed_intro _ s).
      + cbn [effect bear leave bar]. exact Hb.
      + cbn [effect bear leave bar]. exact Hb'.
      + intros x y Hx Hy. cbn [effect bear leave men]. rewrite side_eqb_refl, side_eqb_opp. cbn [andb]. intros Mx My. apply (passed_side q s x y HP Hx Hy); [|exact My]. destruct (x =? i); lia. }
  destruct HL as [m HL|i HA Hi Hm Hp]; [destruct HL as [H|i _ Hi Hm Ho _|i _ Hi Hm _|i _ Hi Hm _ _]|].
  - lia.
  - apply (HM i Hi Hm). left. eauto.
  - apply (HM i Hi Hm). now right.
  - apply (HM i Hi Hm). now right.
  - apply (HM i Hi Hm). now right.
Qed.
Lemma passed_play s dice q ms : nonneg q -> Forall die dice -> passed q -> gplay s dice q ms -> passed (effects q s ms).
Proof.
  intros Hn HD HP H. induction H as [dice q _|d1 d d2 q m ms Hm _ IH]; [exact HP|].
  destruct (Forall_remove _ _ _ _ HD) as (HD' & Hd). unfold effects. cbn [fold_left]. apply IH; [|exact HD'|].
  - unfold nonneg. apply nonneg_effect; [exact Hn|]. eapply gen_playable; eauto.
  - eapply passed_effect; eauto. now apply gen_loose.
Qed.

(** the rearmost checker *)
Lemma rearmost q s : forall n i, (Z.to_nat (24 - pip s i) <= n)%nat -> on_board i -> 0 < men q s i ->
  exists j, on_board j /\ 0 < men q s j /\ forall k, on_board k -> 0 < men q s k -> pip s k <= pip s j.
Proof.
  induction n as [|n IH]; intros i Hi Ho Hm.
  - exists i. split; [exact Ho|]. split; [exact Hm|]. intros k Hk _. unfold on_board in *. destruct s; cbn [pip] in *; lia.
  - destruct (existsb (fun k => (0 <? men q s k) && (pip s i <? pip s k)) (range 0 24)) eqn:E.
    + apply existsb_exists in E. destruct E as (k & Hk & E). apply andb_true_iff in E. destruct E as [E1 E2]. apply Z.ltb_lt in E1, E2. apply In_range in Hk.
      apply (IH k); [destruct s; cbn [pip] in *; unfold on_board in *; lia|unfold on_board; lia|exact E1].
    + exists i. split; [exact Ho|]. split; [exact Hm|]. intros k Hk Hmk. destruct (Z_le_gt_dec (pip s k) (pip s i)) as [L|L]; [exact L|].
      assert (existsb (fun k => (0 <? men q s k) && (pip s i <? pip s k)) (range 0 24) = true); [|congruence].
      apply existsb_exists. exists k. split; [apply In_range; unfold on_board in Hk; lia|]. apply andb_true_iff. split; apply Z.ltb_lt; lia.
Qed.
Lemma race_move b s d : WF b -> die d -> passed (view b) -> off (view b) s <> 15 -> exists m, legal s d (view b) m.
Proof.
  intros HW Hd HP Ho. pose proof (WF_nn _ HW) as Hn.
  assert (exists i, on_board i /\ 0 < men (view b) s i) as (i & Hi & Hm).
  { destruct (existsb (fun k => 0 <? men (view b) s k) (range 0 24)) eqn:E.
    - apply existsb_exists in E. destruct E as (k & Hk & E). apply Z.ltb_lt in E. apply In_range in Hk. exists k. split; [unfold on_board; lia|exact E].
    - exfalso. apply Ho, (wins_iff b s HW). split; [|exact (passed_bar _ s HP)]. intros i.
      destruct (Z_le_gt_dec 0 i) as [L|L]; [destruct (Z_le_gt_dec i 23) as [L'|L']|].
      + pose proof (Hn s i). destruct (Z.eq_dec (men (view b) s i) 0) as [Z0|Z0]; [exact Z0|].
        assert (existsb (fun k => 0 <? men (view b) s k) (range 0 24) = true); [|congruence]. apply existsb_exists. exists i. split; [apply In_range; lia|apply Z.ltb_lt; lia].
      + cbn [view men]. destruct (Z.leb_spec i 23); [lia|]. rewrite andb_false_r. reflexivity.
      + cbn [view men]. destruct (Z.leb_spec 0 i); [lia|]. reflexivity. }
  destruct (rearmost (view b) s _ i (le_n _) Hi Hm) as (j & Hj & Hmj & Hmax). unfold die in Hd.
  destruct (Z_lt_le_dec d (pip s j)) as [L|L].
  - exists (Move j (j + sign s * d)). assert (Ht : on_board (j + sign s * d)) by (unfold on_board in *; destruct s; cbn [pip sign] in *; lia).
    apply legal_move; auto; [exact (passed_bar _ s HP)|]. intros HB. unfold blocked in HB. pose proof (passed_side _ s j _ HP Hj Ht Hmj ltac:(lia)). destruct s; cbn [sign] in *; lia.
  - assert (HA : all_home (view b) s) by (split; [exact (passed_bar _ s HP)|]; intros k Hk Hmk; specialize (Hmax k Hk Hmk); lia).
    exists (Off j). destruct (Z.eq_dec (pip s j) d); [now apply legal_off_exact|]. apply legal_off_over; auto. lia.
Qed.
Lemma C80_move_lemma : forall pr st mvs, bg_pos st -> passed (view (bgboard st)) -> bg_check_winner st = None -> bg_valid_moves pr st = Ok mvs -> mvs <> [].
Proof.
  intros pr st mvs (HW & (s & HM) & HR) HP Hw E ->. destruct (C05_legal_play_extends_lemma pr st s [] HW HR HM E) as (_ & Hs). specialize (Hs eq_refl).
  assert (Ho : off (view (bgboard st)) s <> 15). { rewrite check_winner_off in Hw. destruct s; intros H; rewrite H in Hw; [discriminate Hw|]. destruct (_ =? 15); discriminate Hw. }
  destruct (race_move (bgboard st) s (fst (roll st)) HW (proj1 HR) HP Ho) as (m & Hm). exact (Hs _ m (or_introl eq_refl) Hm).
Qed.
Lemma race_step pr st mvs m r st' r' : bg_pos st -> passed (view (bgboard st)) -> bg_valid_moves pr st = Ok mvs -> In m mvs -> bg_apply_move pr st m r = Ok (st', r') ->
  bg_pos st' /\ passed (view (bgboard st')) /\ distance st' < distance st.
Proof.
  intros HI HP E Hin Ea. destruct (good_apply _ _ (bg_good pr) st mvs m r HI E Hin) as (s2 & r2 & Ea' & HI'). cbn [bg_game g_apply] in Ea'. rewrite Ea in Ea'. injection Ea' as <- <-.
  split; [exact HI'|]. destruct HI as (HW & (s & HM) & HR).
  destruct (valid_move_applies pr st s mvs m HW HR HM E Hin) as (ms & b' & Hne & Em & Hp & Hb & HW' & Hv).
  destruct (apply_spec pr st s m r b' HM (Hb pr)) as (s2 & r2 & Ea' & Hbd & _). rewrite Ea in Ea'. injection Ea' as <- <-. subst b'.
  assert (HP' : passed (view (bgboard st'))).
  { eapply passed_eq; [apply pos_eq_sym, Hv|]. eapply passed_play; [now apply WF_nn|exact (dice_of_die _ HR)|exact HP|exact Hp]. }
  split; [exact HP'|].
  destruct (C13_pips_lemma pr st s mvs m (bgboard st') HW HR HM E Hin (Hb pr)) as ((H1 & _) & _ & _ & H4). cbn zeta in *.
  specialize (H4 (eq_trans (passed_bar _ (opp s) HP') (eq_sym (passed_bar _ (opp s) HP)))).
  assert (0 < Z.of_nat (length m)) by (subst m; rewrite map_length; destruct ms; [contradiction|cbn [length]; lia]).
  unfold distance. destruct s; cbn [opp] in *; lia.
Qed.
Lemma pips_nonneg b s : WF b -> 0 <= pips (view b) s.
Proof.
  intros HW. unfold pips. pose proof (WF_nonneg b s HW) as (Hm & Hb & _). assert (0 <= BgSpec.zsum (fun i => pip s i * men (view b) s i)); [|lia].
  apply zsum_nonneg. intros j Hj. specialize (Hm j). unfold on_board in Hj. apply Z.mul_nonneg_nonneg; [destruct s; cbn [pip]; lia|exact Hm].
Qed.
Lemma C80_ends_lemma : forall pr n st st', bg_pos st -> passed (view (bgboard st)) -> course pr n st st' ->
  bg_pos st' /\ passed (view (bgboard st')) /\ Z.of_nat n + distance st' <= distance st /\ 0 <= distance st'.
Proof.
  intros pr n st st' HI HP H. induction H as [st|n st st1 st2 mvs m r r' Hw E Hin Ea _ IH|n st st1 st2 r r' Hw E Es _ IH].
  - split; [exact HI|]. split; [exact HP|]. split; [lia|]. unfold distance. pose proof (pips_nonneg _ P1 (proj1 HI)). pose proof (pips_nonneg _ P2 (proj1 HI)). lia.
  - destruct (race_step pr st mvs m r st1 r' HI HP E Hin Ea) as (HI' & HP' & Hd). destruct (IH HI' HP') as (A & B & C & D). split; [exact A|]. split; [exact B|]. lia.
  - exfalso. exact (C80_move_lemma pr st [] HI HP Hw E eq_refl).
Qed.
(** a game can always be played to the end *)
Lemma C80_finish_lemma : forall pr st, bg_pos st -> passed (view (bgboard st)) -> exists n st', course pr n st st' /\ bg_check_winner st' <> None /\ Z.of_nat n <= distance st.
Proof.
  intros pr st HI HP. remember (Z.to_nat (distance st)) as k eqn:Ek. revert st HI HP Ek. induction k as [k IH] using lt_wf_ind. intros st HI HP Ek.
  assert (H0 : 0 <= distance st) by (unfold distance; pose proof (pips_nonneg _ P1 (proj1 HI)); pose proof (pips_nonneg _ P2 (proj1 HI)); lia).
  destruct (bg_check_winner st) as [w|] eqn:Ew.
  - exists O, st. split; [constructor|]. split; [congruence|lia].
  - destruct (good_valid _ _ (bg_good pr) st HI) as (mvs & E). cbn [bg_game g_valid] in E. pose proof (C80_move_lemma pr st mvs HI HP Ew E) as Hne. destruct mvs as [|m mvs]; [contradiction|].
    destruct (good_apply _ _ (bg_good pr) st _ m (mkRng (fun _ => 0%N) 0%nat) HI E (or_introl eq_refl)) as (st1 & r1 & Ea & _). cbn [bg_game g_apply] in Ea.
    destruct (race_step pr st _ m _ st1 r1 HI HP E (or_introl eq_refl) Ea) as (HI' & HP' & Hd).
    assert (H1 : 0 <= distance st1) by (unfold distance; pose proof (pips_nonneg _ P1 (proj1 HI')); pose proof (pips_nonneg _ P2 (proj1 HI')); lia).
    destruct (IH (Z.to_nat (distance st1)) ltac:(lia) st1 HI' HP' eq_refl) as (n & st' & Hc & Hw' & Hn). exists (S n), st'. split; [|split; [exact Hw'|lia]].
    eapply course_move; eauto. now left.
Qed.

(** ** Deadlocks *)
Lemma deadlock_eq a b : pos_eq a b -> deadlock a -> deadlock b.
Proof. intros (H1 & H2 & _) H s. destruct (H s) as (A & B). unfold blocked in *. rewrite <- H2. split; [exact A|]. intros d Hd. rewrite <- H1. auto. Qed.
Lemma deadlock_gen q s d m : deadlock q -> die d -> ~ gen s d q m.
Proof. intros H Hd Hg. destruct (H s) as (A & B). destruct Hg as [_ HN|i HB|i (HB & _)|i (HB & _)]; try lia. exact (HN (B d Hd)). Qed.
(** a move never leads into a deadlock *)
Lemma deadlock_effect q s d m : die d -> loose s d q m -> ~ deadlock (effect q s m).
Proof.
  intros Hd HL HD. destruct (HD s) as (HB & HC).
  assert (H0 : bar q s = 0 -> forall m, (exists i t, m = Move i t) \/ (exists i, m = Off i) -> bar (effect q s m) s <= 0).
  { intros E m' [(i & t & ->)|(i & ->)]; cbn [effect land bear leave bar]; rewrite ?side_eqb_refl; lia. }
  destruct HL as [m HL|i HA _ _ _]; [destruct HL as [_ HN|i E _ _ _ _|i HA _ _ _|i HA _ _ _ _]|].
  - specialize (HC d Hd). unfold blocked in *. cbn [effect land leave_bar men] in HC. rewrite Z.eqb_refl, side_eqb_opp in HC. unfold is_blot in HC. cbn [leave_bar men] in HC. destruct (_ =? 1); lia.
  - specialize (H0 E (Move i (i + sign s * d)) ltac:(eauto)). lia.
  - specialize (H0 (proj1 HA) (Off i) ltac:(eauto)). lia.
  - specialize (H0 (proj1 HA) (Off i) ltac:(eauto)). lia.
  - specialize (H0 (proj1 HA) (Off i) ltac:(eauto)). lia.
Qed.
Lemma deadlock_play s dice q ms : Forall die dice -> gplay s dice q ms -> ms <> [] -> ~ deadlock (effects q s ms).
Proof.
  intros HD H. induction H as [dice q _|d1 d d2 q m ms Hm _ IH]; [contradiction|]. intros _.
  destruct (Forall_remove _ _ _ _ HD) as (HD' & Hd). unfold effects. cbn [fold_left]. destruct ms as [|m' ms].
  - cbn [fold_left]. eapply deadlock_effect; [exact Hd|now apply gen_loose].
  - apply IH; [exact HD'|discriminate].
Qed.
Lemma C80_no_deadlock_lemma : forall pr st, reach pr st -> ~ deadlock (view (bgboard st)).
Proof.
  intros pr st H. induction H as [|st st' Hr IH Ha].
  - intros H. destruct (H P1) as (A & _). vm_compute in A. discriminate.
  - destruct (reach_inv _ _ Hr) as (HW & (s & HM) & HR). destruct Ha as [st r|st r st' r' E|st k|st mvs m r st' r' E Hin Ea].
    + pose proof (roll_die_spec st r) as H. cbn zeta in H. destruct H as (_ & -> & _). exact IH.
    + destruct (skip_spec pr st s r HM) as (st2 & r2 & E2 & Hb & _). rewrite E in E2. injection E2 as <- <-. now rewrite Hb.
    + exact IH.
    + destruct HR as [HR|HR]; [unfold bg_valid_moves in E; rewrite HR in E; discriminate|].
      destruct (valid_move_applies pr st s mvs m HW HR HM E Hin) as (ms & b' & Hne & Em & Hp & Hb & HW' & Hv).
      destruct (apply_spec pr st s m r b' HM (Hb pr)) as (s2 & r2 & Ea' & Hbd & _). rewrite Ea in Ea'. injection Ea' as <- <-. rewrite Hbd.
      intros HD. eapply deadlock_play; [exact (dice_of_die _ HR)|exact Hp|exact Hne|]. eapply deadlock_eq; [exact Hv|exact HD].
Qed.
Lemma C80_deadlock_lemma : forall pr n st, bg_pos st -> deadlock (view (bgboard st)) ->
  bg_check_winner st = None /\ bg_valid_moves pr st = Ok [] /\ exists st', course pr n st st' /\ bgboard st' = bgboard st.
Proof.
  intros pr n. induction n as [|n IH]; intros st HI HD.
  all: assert (Hw : bg_check_winner st = None) by
    (rewrite check_winner_off; destruct HI as (HW & _); destruct (HD P1) as (A & _); destruct (HD P2) as (B & _);
     destruct (Z.eqb_spec (off (view (bgboard st)) P1) 15) as [E|_]; [apply (wins_iff _ _ HW) in E; lia|];
     destruct (Z.eqb_spec (off (view (bgboard st)) P2) 15) as [E|_]; [apply (wins_iff _ _ HW) in E; lia|reflexivity]).
  all: assert (Hv : bg_valid_moves pr st = Ok []) by
    (destruct HI as (HW & (s & HM) & HR); destruct (valid_moves_spec pr st s HW HR HM) as (mvs & E & Hs & _); rewrite E; destruct mvs as [|m mvs]; [reflexivity|]; exfalso;
     destruct (Hs m (or_introl eq_refl)) as (ms & Hne & _ & Hp); inversion Hp as [|d1 d d2 q m1 ms1 Hm _]; subst; [contradiction|];
     refine (deadlock_gen _ _ d _ HD _ Hm); apply (proj1 (Forall_forall _ _) (dice_of_die _ HR)); match goal with H : _ ++ _ = _ |- _ => rewrite <- H end; apply in_elt).
  - split; [exact Hw|]. split; [exact Hv|]. exists st. split; [constructor|reflexivity].
  - split; [exact Hw|]. split; [exact Hv|].
    destruct (good_skip _ _ (bg_good pr) st (mkRng (fun _ => 0%N) 0%nat) HI) as (s1 & r1 & Es & HI1). cbn [bg_game g_skip] in Es.
    assert (Hb : bgboard s1 = bgboard st). { destruct HI as (HW & (s & HM) & HR). destruct (skip_spec pr st s (mkRng (fun _ => 0%N) 0%nat) HM) as (s2 & r2 & E2 & Hb & _). rewrite Es in E2. injection E2 as <- <-. exact Hb. }
    destruct (IH s1 HI1 ltac:(now rewrite Hb)) as (_ & _ & st' & Hc & Hb'). exists st'. split; [|congruence]. eapply course_skip; eauto.
Qed.

(** ** Games need not end: one checker left on each side, always 5-5 *)
Definition fives : rng := mkRng (fun _ => 4%N) 0.
Definition lone (p1 p2 : option Z) (h1 h2 : Z) : board :=
  mkBoard (map (fun i => match p1, p2 with Some a, _ => if i =? a then -1 else match p2 with Some b => if i =? b then 1 else 0 | None => 0 end
                                          | None, Some b => if i =? b then 1 else 0 | None, None => 0 end) (range 0 24)) h1 h2 14 14.
Definition chase0 : bg := mkBg (lone None (Some 19) 1 0) (5, 5) (-1) false 0.
Definition chase1 : bg := mkBg (lone (Some 14) None 0 1) (5, 5) (-1) true 0.
Definition chase2 : bg := mkBg (lone (Some 4) None 0 1) (5, 5) 1 false 0.
Definition chase3 : bg := mkBg (lone None (Some 9) 1 0) (5, 5) 1 true 0.
Lemma chase_moves pr : bg_valid_moves pr chase0 = Ok [[(-1, 19); (19, 14)]] /\ bg_valid_moves pr chase1 = Ok [[(14, 9); (9, 4)]] /\
  bg_valid_moves pr chase2 = Ok [[(-1, 4); (4, 9)]] /\ bg_valid_moves pr chase3 = Ok [[(9, 14); (14, 19)]].
Proof. destruct pr; (split; [|split; [|split]]); vm_compute; reflexivity. Qed.
Lemma chase_steps pr : (exists r, bg_apply_move pr chase0 [(-1, 19); (19, 14)] fives = Ok (chase1, r)) /\ (exists r, bg_apply_move pr chase1 [(14, 9); (9, 4)] fives = Ok (chase2, r)) /\
  (exists r, bg_apply_move pr chase2 [(-1, 4); (4, 9)] fives = Ok (chase3, r)) /\ (exists r, bg_apply_move pr chase3 [(9, 14); (14, 19)] fives = Ok (chase0, r)).
Proof. destruct pr; (split; [|split; [|split]]); eexists; vm_compute; reflexivity. Qed.
Lemma chase_for_ever pr : forall n st, In st [chase0; chase1; chase2; chase3] -> exists st', course pr n st st' /\ In st' [chase0; chase1; chase2; chase3].
Proof.
  destruct (chase_moves pr) as (M0 & M1 & M2 & M3). destruct (chase_steps pr) as ((r0 & S0) & (r1 & S1) & (r2 & S2) & (r3 & S3)).
  induction n as [|n IH]; intros st Hs; [exists st; split; [constructor|exact Hs]|].
  assert (Hm : forall mvs m r st1, bg_check_winner st = None -> bg_valid_moves pr st = Ok mvs -> In m mvs -> bg_apply_move pr st m fives = Ok (st1, r) -> In st1 [chase0; chase1; chase2; chase3] ->
    exists st', course pr (S n) st st' /\ In st' [chase0; chase1; chase2; chase3]).
  { intros mvs m r st1 Hw E Hi Ea H1. destruct (IH st1 H1) as (st' & Hc & H'). exists st'. split; [|exact H']. eapply course_move; eauto. }
  destruct Hs as [<-|[<-|[<-|[<-|[]]]]].
  - apply (Hm _ _ _ _ eq_refl M0 (or_introl eq_refl) S0). right. now left.
  - apply (Hm _ _ _ _ eq_refl M1 (or_introl eq_refl) S1). right. right. now left.
  - apply (Hm _ _ _ _ eq_refl M2 (or_introl eq_refl) S2). right. right. right. now left.
  - apply (Hm _ _ _ _ eq_refl M3 (or_introl eq_refl) S3). now left.
Qed.
Lemma chase_open st : In st [chase0; chase1; chase2; chase3] -> bg_check_winner st = None.
Proof. intros [<-|[<-|[<-|[<-|[]]]]]; reflexivity. Qed.
(** a game that gets there: which of the valid moves is taken (none if there is none), and the dice then rolled *)
Fixpoint crun (pr : profile) (st : bg) (l : list (nat * Z * Z)) : res bg :=
  match l with
  | [] => Ok st
  | (k, d0, d1) :: l' =>
    match bg_check_winner st with
    | Some _ => Panic PAssert
    | None =>
      mvs <- bg_valid_moves pr st ;;
      match mvs with
      | [] => x <- bg_skip_turn pr st (dice_rng d0 d1) ;; crun pr (fst x) l'
      | _ => match nth_error mvs k with Some m => x <- bg_apply_move pr st m (dice_rng d0 d1) ;; crun pr (fst x) l' | None => Panic PAssert end
      end
    end
  end.
Lemma crun_course pr : forall l st st', crun pr st l = Ok st' -> course pr (length l) st st'.
Proof.
  induction l as [|((k & d0) & d1) l IH]; intros st st' E; cbn [crun] in E; [injection E as <-; constructor|]. cbn [length].
  destruct (bg_check_winner st) eqn:Ew; [discriminate|]. destruct (bg_valid_moves pr st) as [mvs|] eqn:Ev; cbn [bind] in E; [|discriminate].
  assert (HP : forall m, nth_error mvs k = Some m -> (x <- bg_apply_move pr st m (dice_rng d0 d1) ;; crun pr (fst x) l) = Ok st' -> course pr (S (length l)) st st').
  { intros m Em E'. destruct (bg_apply_move pr st m (dice_rng d0 d1)) as [[s1 r1]|] eqn:Ea; cbn [bind fst] in E'; [|discriminate]. eapply course_move; eauto. eapply nth_error_In; eauto. }
  destruct mvs as [|m0 mvs].
  - destruct (bg_skip_turn pr st (dice_rng d0 d1)) as [[s1 r1]|] eqn:Es; cbn [bind fst] in E; [|discriminate]. eapply course_skip; eauto.
  - destruct (nth_error (m0 :: mvs) k) as [m|] eqn:Em; [|discriminate]. exact (HP m eq_refl E).
Qed.
Definition tr_chase : list (nat * Z * Z) :=
  [(1%nat, 3, 1); (5%nat, 6, 5); (10%nat, 6, 6); (0%nat, 6, 5); (9%nat, 6, 6); (0%nat, 6, 5); (9%nat, 6, 6);
   (0%nat, 6, 5); (7%nat, 6, 6); (0%nat, 6, 5); (7%nat, 6, 6); (0%nat, 6, 5); (3%nat, 6, 6); (0%nat, 6, 5);
   (3%nat, 6, 6); (0%nat, 4, 3); (4%nat, 6, 6); (0%nat, 4, 3); (7%nat, 6, 6); (0%nat, 4, 3); (10%nat, 6, 6);
   (0%nat, 5, 4); (4%nat, 6, 6); (0%nat, 4, 3); (0%nat, 6, 6); (0%nat, 4, 3); (0%nat, 6, 6); (0%nat, 2, 1);
   (0%nat, 6, 6); (0%nat, 2, 1); (0%nat, 6, 6); (0%nat, 2, 1); (0%nat, 6, 6); (0%nat, 2, 1); (0%nat, 6, 6);
   (0%nat, 2, 1); (0%nat, 6, 6); (0%nat, 2, 1); (0%nat, 6, 6); (0%nat, 6, 3); (0%nat, 6, 6); (0%nat, 6, 1);
   (0%nat, 6, 5); (0%nat, 6, 6); (0%nat, 6, 5); (0%nat, 6, 6); (0%nat, 6, 5); (0%nat, 6, 6); (0%nat, 6, 5);
   (0%nat, 6, 6); (0%nat, 6, 5); (0%nat, 6, 6); (0%nat, 6, 5); (0%nat, 6, 6); (0%nat, 6, 5); (0%nat, 6, 6);
   (0%nat, 6, 5); (2%nat, 6, 6); (0%nat, 5, 4); (0%nat, 6, 6); (0%nat, 5, 4); (0%nat, 6, 6); (0%nat, 5, 4);
   (2%nat, 6, 6); (0%nat, 4, 3); (0%nat, 6, 6); (0%nat, 6, 4); (1%nat, 6, 6); (0%nat, 6, 4); (1%nat, 6, 6);
   (0%nat, 4, 3); (4%nat, 6, 6); (0%nat, 2, 1); (5%nat, 6, 6); (0%nat, 2, 1); (5%nat, 6, 6); (0%nat, 2, 1);
   (5%nat, 6, 6); (0%nat, 2, 1); (5%nat, 6, 6); (0%nat, 2, 1); (5%nat, 6, 6); (0%nat, 6, 3); (1%nat, 6, 6);
   (0%nat, 6, 1); (0%nat, 5, 5)].
Definition opening : bg := fst (bg_roll_die bg_new (dice_rng 6 1)).
Lemma run_chase pr : crun pr opening tr_chase = Ok chase0.
Proof. destruct pr; vm_compute; reflexivity. Qed.
Lemma course_app pr n st st1 : course pr n st st1 -> forall m st2, course pr m st1 st2 -> course pr (n + m) st st2.
Proof. induction 1; intros k st3 HC; [exact HC|cbn [Nat.add]; eapply course_move; eauto|cbn [Nat.add]; eapply course_skip; eauto]. Qed.
Lemma course_prefix pr n st st' : course pr n st st' -> bg_check_winner st' = None -> forall k, (k <= n)%nat -> exists st1, course pr k st st1 /\ bg_check_winner st1 = None.
Proof.
  intros H Hw. induction H as [st|n st st1 st2 mvs m r r' Hn E Hi Ea Hc IH|n st st1 st2 r r' Hn E Ea Hc IH]; intros k Hk.
  - exists st. assert (k = O) as -> by lia. split; [constructor|exact Hw].
  - destruct k as [|k]; [exists st; split; [constructor|exact Hn]|]. destruct (IH Hw k ltac:(lia)) as (s & Hs & Hsw). exists s. split; [eapply course_move; eauto|exact Hsw].
  - destruct k as [|k]; [exists st; split; [constructor|exact Hn]|]. destruct (IH Hw k ltac:(lia)) as (s & Hs & Hsw). exists s. split; [eapply course_skip; eauto|exact Hsw].
Qed.
Lemma C80_endless_lemma : forall pr, exists r, forall n, exists st', course pr n (fst (bg_roll_die bg_new r)) st' /\ bg_check_winner st' = None.
Proof.
  intros pr. exists (dice_rng 6 1). intros n. destruct (chase_for_ever pr n chase0 (or_introl eq_refl)) as (st' & Hc & Hi).
  apply (course_prefix pr (length tr_chase + n) _ st'); [|now apply chase_open|lia].
  eapply course_app; [exact (crun_course pr _ _ _ (run_chase pr))|exact Hc].
Qed.
(** the cycle leaves the players no choice *)
Lemma C80_forced_lemma : forall pr, exists st, (exists r k, course pr k (fst (bg_roll_die bg_new r)) st) /\
  forall n, exists l, length l = S n /\ nth 0 l bg_new = st /\
    forall i, (i < n)%nat -> exists m r r', bg_check_winner (nth i l bg_new) = None /\ bg_valid_moves pr (nth i l bg_new) = Ok [m] /\ bg_apply_move pr (nth i l bg_new) m r = Ok (nth (S i) l bg_new, r').
Proof.
  intros pr. exists chase0. split; [exists (dice_rng 6 1), (length tr_chase); exact (crun_course pr _ _ _ (run_chase pr))|].
  destruct (chase_moves pr) as (M0 & M1 & M2 & M3). destruct (chase_steps pr) as ((r0 & S0) & (r1 & S1) & (r2 & S2) & (r3 & S3)).
  assert (H : forall n st, In st [chase0; chase1; chase2; chase3] -> exists l, length l = S n /\ nth 0 l bg_new = st /\
    forall i, (i < n)%nat -> exists m r r', bg_check_winner (nth i l bg_new) = None /\ bg_valid_moves pr (nth i l bg_new) = Ok [m] /\ bg_apply_move pr (nth i l bg_new) m r = Ok (nth (S i) l bg_new, r')).
  { induction n as [|n IH]; intros st Hs; [exists [st]; split; [reflexivity|]; split; [reflexivity|]; intros i Hi; lia|].
    assert (Hm : forall m r st1, bg_check_winner st = None -> bg_valid_moves pr st = Ok [m] -> bg_apply_move pr st m fives = Ok (st1, r) -> In st1 [chase0; chase1; chase2; chase3] ->
      exists l, length l = S (S n) /\ nth 0 l bg_new = st /\
        forall i, (i < S n)%nat -> exists m r r', bg_check_winner (nth i l bg_new) = None /\ bg_valid_moves pr (nth i l bg_new) = Ok [m] /\ bg_apply_move pr (nth i l bg_new) m r = Ok (nth (S i) l bg_new, r')).
    { intros m r st1 Hw E Ea H1. destruct (IH st1 H1) as (l & Hl & H0 & Hi). exists (st :: l). split; [cbn [length]; congruence|]. split; [reflexivity|].
      intros [|i] Hlt; cbn [nth]; [exists m, fives, r; rewrite H0; auto|]. apply Hi. lia. }
    destruct Hs as [<-|[<-|[<-|[<-|[]]]]].
    - apply (Hm _ _ _ eq_refl M0 S0). right. now left.
    - apply (Hm _ _ _ eq_refl M1 S1). right. right. now left.
    - apply (Hm _ _ _ eq_refl M2 S2). right. right. right. now left.
    - apply (Hm _ _ _ eq_refl M3 S3). now left. }
  intros n. apply H. now left.
Qed.

(** ** The plain search in a race *)
Definition race (s : bg) : Prop := bg_pos s /\ passed (view (bgboard s)).
Lemma race_good pr : good (bg_game pr) race.
Proof.
  constructor.
  - intros s (HI & _). exact (good_valid _ _ (bg_good pr) s HI).
  - intros s l m r (HI & HP) E Hin. destruct (good_apply _ _ (bg_good pr) s l m r HI E Hin) as (s' & r' & Ea & _). exists s', r'. split; [exact Ea|].
    destruct (race_step pr s l m r s' r' HI HP E Hin Ea) as (H1 & H2 & _). split; assumption.
  - intros s r (HI & HP). destruct (good_skip _ _ (bg_good pr) s r HI) as (s' & r' & Es & HI'). exists s', r'. split; [exact Es|]. split; [exact HI'|].
    destruct HI as (HW & (d & HM) & HR). destruct (skip_spec pr s d r HM) as (s2 & r2 & E2 & Hb & _). cbn [bg_game g_skip] in Es. rewrite Es in E2. injection E2 as <- <-. now rewrite Hb.
Qed.
Lemma race_live pr : live (bg_game pr) race.
Proof. intros s (HI & HP) Hw E. exact (C80_move_lemma pr s [] HI HP Hw E eq_refl). Qed.
Lemma C80_search_lemma : forall pr ln s pl cfg r, bg_pos s -> passed (view (bgboard s)) -> (pl = -1 \/ pl = 1) -> bg_check_winner s = None -> (0 < iterations cfg)%nat ->
  exists m r' vm, mct_search (G := bg_game pr) ln s pl cfg r = Ok (m, r') /\ bg_valid_moves pr s = Ok vm /\ In m vm.
Proof.
  intros pr ln s pl cfg r HI HP Hpl Hw Hi. destruct (C27_valid_move_lemma (bg_game pr) ln race s pl cfg r (race_good pr) (race_live pr) (conj HI HP) ltac:(lia)) as (m & r' & E & _ & H).
  destruct (H Hw Hi) as (vm & Ev & Hin). exists m, r', vm. auto.
Qed.
