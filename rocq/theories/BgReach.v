(** * BgReach: histories of API calls, their invariants, and executable traces
    used to show that concrete positions are reachable. *)
From Verif Require Import Base BaseFacts BgModel BgSpec BgStep BgGen BgTurn.
From Coq Require Import Permutation.
Require Import ZifyBool ZifyNat.

(** One API call of a user of [Backgammon]: [roll_die], [skip_turn], [set_id], or
    [apply_move] with a move that [get_valid_moves] returned.  Dice outcomes are
    arbitrary (any random source). *)
Inductive api (pr : profile) : bg -> bg -> Prop :=
| api_roll st r : api pr st (fst (bg_roll_die st r))
| api_skip st r st' r' : bg_skip_turn pr st r = Ok (st', r') -> api pr st st'
| api_id st k : api pr st (mkBg (bgboard st) (roll st) (player st) (second st) k)
| api_play st mvs m r st' r' :
    bg_valid_moves pr st = Ok mvs -> In m mvs -> bg_apply_move pr st m r = Ok (st', r') -> api pr st st'.

(** Positions reachable from [Backgammon::new()]. *)
Inductive reach (pr : profile) : bg -> Prop :=
| reach_new : reach pr bg_new
| reach_api st st' : reach pr st -> api pr st st' -> reach pr st'.

(** What holds throughout. *)
Definition inv (st : bg) : Prop :=
  WF (bgboard st) /\ (exists s, mover st s) /\ (roll st = (0, 0) \/ rolled (roll st)).

Lemma WF_initial : WF initial_board.
Proof. repeat split; vm_compute; congruence. Qed.

Lemma roll_die_spec st r :
  let st' := fst (bg_roll_die st r) in
  rolled (roll st') /\ bgboard st' = bgboard st /\ player st' = player st /\ second st' = second st /\ bgid st' = bgid st.
Proof.
  unfold bg_roll_die. pose proof (gen_range_spec 1 6 r ltac:(lia)) as H1.
  destruct (gen_range 1 6 r) as [d0 r1]. pose proof (gen_range_spec 1 6 r1 ltac:(lia)) as H2.
  destruct (gen_range 1 6 r1) as [d1 r2]. cbn in *. unfold rolled, die. cbn. auto.
Qed.
Lemma i8_sign pr s : i8 pr (sign s * -1) = Ok (sign (opp s)).
Proof. rewrite i8_ok; destruct s; cbn; try lia; reflexivity. Qed.
Lemma skip_spec pr st s r : mover st s ->
  exists st' r', bg_skip_turn pr st r = Ok (st', r') /\ bgboard st' = bgboard st /\ mover st' (opp s)
                 /\ second st' = false /\ rolled (roll st') /\ bgid st' = bgid st.
Proof.
  unfold mover. intros HM. unfold bg_skip_turn. rewrite HM, i8_sign. cbn [bind].
  set (st1 := mkBg _ _ _ _ _).
  pose proof (roll_die_spec st1 r) as H. cbn zeta in H.
  destruct (bg_roll_die st1 r) as [st' r']. cbn [fst] in H. exists st', r'. split; [reflexivity|].
  destruct H as (H1 & H2 & H3 & H4 & H5). subst st1. cbn in *. repeat split; auto; try apply H1; congruence.
Qed.
Lemma apply_spec pr st s m r b' : mover st s -> get_next_state pr (bgboard st) m (player st) = Ok b' ->
  exists st' r', bg_apply_move pr st m r = Ok (st', r') /\ bgboard st' = b' /\ bgid st' = bgid st /\
    (fst (roll st) = snd (roll st) /\ second st = false ->
       st' = mkBg b' (roll st) (player st) true (bgid st) /\ r' = r) /\
    (~ (fst (roll st) = snd (roll st) /\ second st = false) ->
       mover st' (opp s) /\ second st' = false /\ rolled (roll st')).
Proof.
  unfold mover. intros HM Hb. unfold bg_apply_move. rewrite Hb. cbn [bind].
  destruct ((fst (roll st) =? snd (roll st)) && negb (second st)) eqn:E.
  - apply andb_true_iff in E. destruct E as (E1 & E2). apply Z.eqb_eq in E1. apply negb_true_iff in E2.
    exists (mkBg b' (roll st) (player st) true (bgid st)), r. split; [reflexivity|]. split; [reflexivity|].
    split; [reflexivity|]. split; [auto|]. intros H. exfalso. auto.
  - rewrite HM, i8_sign. cbn [bind]. set (st1 := mkBg _ _ _ _ _).
    pose proof (roll_die_spec st1 r) as H. cbn zeta in H.
    destruct (bg_roll_die st1 r) as [st' r']. cbn [fst] in H. exists st', r'. split; [reflexivity|].
    destruct H as (H1 & H2 & H3 & H4 & H5). subst st1. cbn in *. split; [auto|]. split; [auto|]. split.
    + intros (H6 & H7). rewrite H7, H6, Z.eqb_refl in E. discriminate.
    + intros _. auto.
Qed.

(** A generated move can be applied and keeps the board well formed. *)
Lemma valid_move_applies pr st s mvs m :
  WF (bgboard st) -> rolled (roll st) -> mover st s -> bg_valid_moves pr st = Ok mvs -> In m mvs ->
  exists ms b', ms <> [] /\ m = map act_of ms /\ gplay s (dice_of (roll st)) (view (bgboard st)) ms
    /\ (forall pr', get_next_state pr' (bgboard st) m (player st) = Ok b') /\ WF b'
    /\ pos_eq (view b') (effects (view (bgboard st)) s ms).
Proof.
  intros HW HR HM E Hin.
  destruct (valid_moves_spec pr st s HW HR HM) as (mvs' & E' & Hs & _). rewrite E in E'. injection E' as <-.
  destruct (Hs m Hin) as (ms & Hne & -> & Hp).
  assert (HP : seq_playable s (view (bgboard st)) ms).
  { eapply gplay_playable; [apply dice_of_die, HR|exact Hp]. }
  destruct (get_next_state_refines Debug s ms (bgboard st) HW HP) as (b' & Eb & HW' & Hv).
  exists ms, b'. split; [auto|]. split; [auto|]. split; [auto|]. split; [|auto].
  intros pr'. unfold mover in HM. rewrite HM.
  destruct (get_next_state_refines pr' s ms (bgboard st) HW HP) as (b2 & Eb2 & HW2 & Hv2).
  rewrite Eb2. f_equal. apply view_inj; try now apply WF_len.
  eapply pos_eq_trans; [exact Hv2|now apply pos_eq_sym].
Qed.

Lemma inv_new : inv bg_new.
Proof. split; [exact WF_initial|]. split; [exists P1; reflexivity|left; reflexivity]. Qed.
Lemma inv_api pr st st' : inv st -> api pr st st' -> inv st'.
Proof.
  intros (HW & (s & HM) & HR) H. destruct H as [st r|st r st' r' E|st k|st mvs m r st' r' E Hin Ea].
  - pose proof (roll_die_spec st r) as H. cbn zeta in H. destruct H as (H1 & H2 & H3 & _).
    split; [now rewrite H2|]. split; [exists s; unfold mover; congruence|now right].
  - destruct (skip_spec pr st s r HM) as (st2 & r2 & E2 & Hb & HM2 & _ & HR2 & _).
    rewrite E in E2. injection E2 as <- <-. split; [now rewrite Hb|]. split; [now exists (opp s)|now right].
  - split; [auto|]. split; [now exists s|auto].
  - destruct HR as [HR|HR].
    { unfold bg_valid_moves in E. rewrite HR in E. discriminate. }
    destruct (valid_move_applies pr st s mvs m HW HR HM E Hin) as (ms & b' & _ & _ & _ & Hb & HW' & _).
    destruct (apply_spec pr st s m r b' HM (Hb pr)) as (st2 & r2 & E2 & Hb2 & _ & Hd & Hn).
    rewrite Ea in E2. injection E2 as <- <-. split; [now rewrite Hb2|].
    destruct (Z.eq_dec (fst (roll st)) (snd (roll st))) as [Ed|Ed], (second st) eqn:Es.
    + destruct Hn as (H1 & _ & H2); [intros (_ & ?); discriminate|]. split; [eauto|auto].
    + destruct Hd as (-> & _); [auto|]. split; [exists s; exact HM|right; exact HR].
    + destruct Hn as (H1 & _ & H2); [intros (? & _); auto|]. split; [eauto|auto].
    + destruct Hn as (H1 & _ & H2); [intros (? & _); auto|]. split; [eauto|auto].
Qed.
Theorem reach_inv pr st : reach pr st -> inv st.
Proof. induction 1; [apply inv_new|eapply inv_api; eauto]. Qed.

(** ** [is_valid] *)
Lemma is_valid_ok pr st : WF (bgboard st) -> bg_is_valid pr st = Ok tt.
Proof.
  intros HW. pose proof (WF_bounded _ HW) as (Hl & Hb). pose proof (WF_hits _ HW) as Hh.
  pose proof (WF_total _ P1 HW) as T1. pose proof (WF_total _ P2 HW) as T2.
  unfold checkers in T1, T2. unfold bg_is_valid. set (b := bgboard st) in *.
  assert (Epts : pts b = map (at_pt (pts b)) (range 0 24)).
  { pose proof (slice_range (pts b) 0 24 ltac:(lia) ltac:(lia)) as E. rewrite <- E.
    cbn [skipn Z.to_nat]. rewrite firstn_all2; [reflexivity|]. rewrite Hl. lia. }
  assert (Z1 : zsum (men (view b) P1) = lsum (map (fun i => Z.max 0 (- at_pt (pts b) i)) (range 0 24))).
  { unfold zsum. change (fold_right Z.add 0) with lsum. apply (f_equal lsum). apply map_ext_in. intros i Hi. apply In_range in Hi. rewrite men_view by (unfold on_board; lia).
    cbn [sign]. lia. }
  assert (Z2 : zsum (men (view b) P2) = lsum (map (fun i => Z.max 0 (at_pt (pts b) i)) (range 0 24))).
  { unfold zsum. change (fold_right Z.add 0) with lsum. apply (f_equal lsum). apply map_ext_in. intros i Hi. apply In_range in Hi. rewrite men_view by (unfold on_board; lia).
    cbn [sign]. lia. }
  assert (F : forall l t1 t2, 0 <= t1 -> 0 <= t2 ->
     t1 + lsum (map (fun i => Z.max 0 (- at_pt (pts b) i)) l) <= 15 ->
     t2 + lsum (map (fun i => Z.max 0 (at_pt (pts b) i)) l) <= 15 ->
     mfold (fun acc x => let (t1, t2) := acc : Z * Z in
      if x <? 0 then t1' <- i8 pr (t1 - x) ;; Ok (t1', t2)
      else if 0 <? x then t2' <- i8 pr (t2 + x) ;; Ok (t1, t2')
      else Ok (t1, t2)) (map (at_pt (pts b)) l) (t1, t2)
     = Ok (t1 + lsum (map (fun i => Z.max 0 (- at_pt (pts b) i)) l), t2 + lsum (map (fun i => Z.max 0 (at_pt (pts b) i)) l))).
  { induction l as [|i l IH]; intros t1 t2 H1 H2 H3 H4; cbn [map mfold] in *.
    - f_equal. f_equal; cbn; lia.
    - rewrite lsum_cons in H3, H4. rewrite !lsum_cons.
      assert (0 <= lsum (map (fun i => Z.max 0 (- at_pt (pts b) i)) l)).
      { apply lsum_nonneg. intros x Hx. apply in_map_iff in Hx. destruct Hx as (j & <- & _). lia. }
      assert (0 <= lsum (map (fun i => Z.max 0 (at_pt (pts b) i)) l)).
      { apply lsum_nonneg. intros x Hx. apply in_map_iff in Hx. destruct Hx as (j & <- & _). lia. }
      destruct (Z.ltb_spec (at_pt (pts b) i) 0); [|destruct (Z.ltb_spec 0 (at_pt (pts b) i))].
      + rewrite i8_ok by lia. cbn [bind]. rewrite IH by lia. f_equal. f_equal; lia.
      + rewrite i8_ok by lia. cbn [bind]. rewrite IH by lia. f_equal. f_equal; lia.
      + cbn [bind]. rewrite IH by lia. f_equal. f_equal; lia. }
  assert (N1 := proj1 (proj2 (WF_nonneg b P1 HW))). assert (N2 := proj1 (proj2 (WF_nonneg b P2 HW))).
  assert (N3 := proj2 (proj2 (WF_nonneg b P1 HW))). assert (N4 := proj2 (proj2 (WF_nonneg b P2 HW))).
  cbn [view bar off] in *.
  rewrite Epts, F by lia. cbn [bind].
  unfold u8_as_i8. rewrite !wrap_i8_id by lia.
  rewrite <- Z1, <- Z2.
  pose proof (zsum_nonneg (men (view b) P1) (fun i _ => proj1 (WF_nonneg b P1 HW) i)).
  pose proof (zsum_nonneg (men (view b) P2) (fun i _ => proj1 (WF_nonneg b P2 HW) i)).
  rewrite (i8_ok pr (0 + zsum (men (view b) P1) + hit1 b)) by lia. cbn [bind].
  rewrite (i8_ok pr (0 + zsum (men (view b) P1) + hit1 b + col1 b)) by lia. cbn [bind].
  rewrite (i8_ok pr (0 + zsum (men (view b) P2) + hit2 b)) by lia. cbn [bind].
  rewrite (i8_ok pr (0 + zsum (men (view b) P2) + hit2 b + col2 b)) by lia. cbn [bind].
  destruct (Z.eqb_spec (0 + zsum (men (view b) P1) + hit1 b + col1 b) 15); [|lia].
  destruct (Z.eqb_spec (0 + zsum (men (view b) P2) + hit2 b + col2 b) 15); [|lia]. reflexivity.
Qed.

(** ** Profile independence of move generation *)
Lemma bind_ext {A B} (r r' : res A) (k k' : A -> res B) :
  r = r' -> (forall a, r = Ok a -> k a = k' a) -> bind r k = bind r' k'.
Proof. intros <- H. destruct r; cbn; auto. Qed.
Lemma mmap_ext {A B} (f g : A -> res B) l : (forall x, In x l -> f x = g x) -> mmap f l = mmap g l.
Proof.
  induction l as [|x l IH]; intros H; cbn; [reflexivity|]. rewrite H by now left.
  rewrite IH by (intros; apply H; now right). reflexivity.
Qed.
Lemma entry_actions_profile pr pr' dice b s :
  WF b -> Forall die dice -> entry_actions pr dice b (sign s) = entry_actions pr' dice b (sign s).
Proof.
  intros HW HD. unfold entry_actions. rewrite dice_id by auto. rewrite Forall_forall in HD.
  apply bind_ext; [|reflexivity]. unfold mflat. apply bind_ext; [|reflexivity]. apply mmap_ext.
  intros d Hd. specialize (HD d Hd). unfold die in HD. unfold entry_one. destruct s; cbn [sign Z.eqb Pos.eqb];
  rewrite !i8_ok by lia; reflexivity.
Qed.
Lemma normal_actions_profile pr pr' dice b s :
  WF b -> Forall die dice -> normal_actions pr dice b (sign s) = normal_actions pr' dice b (sign s).
Proof.
  intros HW HD. unfold normal_actions. rewrite dice_id by auto. rewrite Forall_forall in HD.
  pose proof (WF_bounded b HW) as HB.
  apply bind_ext.
  - destruct ((sign s =? -1) && is_collectible b (sign s)).
    + unfold mflat. apply bind_ext; [|reflexivity]. apply mmap_ext. intros d Hd. rewrite !collect_p1_ok; auto.
    + destruct ((sign s =? 1) && is_collectible b (sign s)); [|reflexivity].
      unfold mflat. apply bind_ext; [|reflexivity]. apply mmap_ext. intros d Hd. rewrite !collect_p2_ok; auto.
  - intros cs _. apply bind_ext; [|reflexivity]. unfold mflat. apply bind_ext; [|reflexivity].
    apply mmap_ext. intros d Hd. apply bind_ext; [|reflexivity]. apply mmap_ext. intros [i n] Hi.
    apply In_enum in Hi. destruct HB as (Hl & HB). rewrite Hl in Hi.
    rewrite !normal_one_ok; auto; try (split; auto); unfold on_board; lia.
Qed.
Lemma action_trees_profile pr pr' s fuel : forall dice b,
  WF b -> Forall die dice ->
  action_trees pr fuel dice b (sign s) = action_trees pr' fuel dice b (sign s).
Proof.
  induction fuel as [|fuel IH]; intros dice b HW HD; [reflexivity|]. cbn [action_trees].
  change (if 0 <? get_pieces_hit b (sign s) then entry_actions pr dice b (sign s) else normal_actions pr dice b (sign s))
    with (first_actions pr dice b (sign s)).
  change (if 0 <? get_pieces_hit b (sign s) then entry_actions pr' dice b (sign s) else normal_actions pr' dice b (sign s))
    with (first_actions pr' dice b (sign s)).
  assert (E : first_actions pr dice b (sign s) = first_actions pr' dice b (sign s)).
  { unfold first_actions. rewrite (entry_actions_profile pr pr'), (normal_actions_profile pr pr') by auto. reflexivity. }
  apply bind_ext; [exact E|]. intros acts Ea. unfold grow. apply mmap_ext. intros [d a] Hin.
  destruct (first_actions_spec pr dice b s HW HD) as (acts' & Ea' & Hacts). rewrite Ea in Ea'. injection Ea' as <-.
  apply Hacts in Hin. destruct Hin as (m & Hd & Ha & Hg). cbn [fst snd] in *. subst a.
  assert (Hdie : die d) by (rewrite Forall_forall in HD; auto).
  pose proof (gen_playable _ _ _ _ Hdie Hg) as Hp. cbn [get_next_state mfold].
  rewrite (next_action_profile b s m HW Hp pr pr').
  destruct (next_action_WF pr' b s m HW Hp) as (b' & -> & HW' & _). cbn [bind].
  replace (i8_as_u8 d) with d by (symmetry; apply wrap_u8_id; unfold die in Hdie; lia).
  destruct (remove_first_ok d dice Hd) as (l1 & l2 & Hdice & ->). cbn [bind].
  rewrite IH; [reflexivity|auto|]. rewrite Hdice in HD. now destruct (Forall_remove _ _ _ _ HD).
Qed.
Lemma dedup_profile pr pr' st p seqs : forall seen,
  (forall m, In m seqs -> get_next_state pr st m p = get_next_state pr' st m p) ->
  dedup_states pr st p seqs seen = dedup_states pr' st p seqs seen.
Proof.
  induction seqs as [|m seqs IH]; intros seen H; [reflexivity|]. cbn [dedup_states].
  rewrite !mfold_singletons. apply bind_ext; [apply H; now left|]. intros b _.
  destruct (existsb (board_eqb b) seen).
  - apply IH. intros; apply H; now right.
  - apply bind_ext; [|reflexivity]. apply IH. intros; apply H; now right.
Qed.
Theorem valid_moves_profile pr pr' st s :
  WF (bgboard st) -> rolled (roll st) -> mover st s -> bg_valid_moves pr st = bg_valid_moves pr' st.
Proof.
  intros HW HR HM. unfold mover in HM. unfold bg_valid_moves. destruct (_ && _); [reflexivity|]. rewrite HM.
  pose proof (all_moves_die _ HR) as HD.
  apply bind_ext; [now apply action_trees_profile|]. intros ts Ets. apply dedup_profile. intros m Hm.
  destruct (action_trees_spec pr s 3 (all_moves (roll st)) (bgboard st) HW HD) as (ts' & Ets' & _ & Hseq).
  { rewrite (Permutation_length (all_moves_perm _)). cbn. lia. }
  rewrite Ets in Ets'. injection Ets' as <-. apply Hseq in Hm. destruct Hm as (ms & _ & -> & Hp).
  pose proof (gplay_playable _ _ _ _ HD Hp) as HP.
  destruct (get_next_state_refines pr s ms _ HW HP) as (b1 & E1 & HW1 & Hv1).
  destruct (get_next_state_refines pr' s ms _ HW HP) as (b2 & E2 & HW2 & Hv2).
  rewrite E1, E2. f_equal. apply view_inj; try now apply WF_len.
  eapply pos_eq_trans; [exact Hv1|now apply pos_eq_sym].
Qed.

(** ** Executable traces *)
Inductive top := TRoll (d0 d1 : Z) | TSkip (d0 d1 : Z) | TPlay (m : actions) (d0 d1 : Z).
(** a random source that shows the dice [d0], [d1] *)
Definition dice_rng (d0 d1 : Z) : rng :=
  mkRng (fun n => match n with O => Z.to_N (d0 - 1) | _ => Z.to_N (d1 - 1) end) 0.
Fixpoint act_eqb (a b : actions) : bool :=
  match a, b with
  | [], [] => true
  | (f, t) :: a', (f', t') :: b' => (f =? f') && (t =? t') && act_eqb a' b'
  | _, _ => false
  end.
Lemma act_eqb_eq a b : act_eqb a b = true <-> a = b.
Proof.
  revert b; induction a as [|[f t] a IH]; intros [|[f' t'] b]; cbn; try (split; congruence).
  rewrite !andb_true_iff, !Z.eqb_eq, IH. split; [intros ((-> & ->) & ->); auto|intros [= -> -> ->]; auto].
Qed.
Definition run_top (pr : profile) (st : bg) (o : top) : res bg :=
  match o with
  | TRoll d0 d1 => Ok (fst (bg_roll_die st (dice_rng d0 d1)))
  | TSkip d0 d1 => '(st', _) <- bg_skip_turn pr st (dice_rng d0 d1) ;; Ok st'
  | TPlay m d0 d1 =>
    mvs <- bg_valid_moves pr st ;;
    if existsb (act_eqb m) mvs then
      '(st', _) <- bg_apply_move pr st m (dice_rng d0 d1) ;; Ok st'
    else Panic PAssert
  end.
Definition run (pr : profile) (st : bg) (l : list top) : res bg := mfold (run_top pr) l st.

Lemma run_top_api pr st o st' : run_top pr st o = Ok st' -> api pr st st'.
Proof.
  destruct o as [d0 d1|d0 d1|m d0 d1]; cbn [run_top].
  - intros H. assert (st' = fst (bg_roll_die st (dice_rng d0 d1))) as -> by congruence. apply api_roll.
  - destruct (bg_skip_turn pr st (dice_rng d0 d1)) as [[st2 r2]|] eqn:E; cbn; [|discriminate].
    intros [= <-]. eapply api_skip; eauto.
  - destruct (bg_valid_moves pr st) as [mvs|] eqn:E; cbn; [|discriminate].
    destruct (existsb (act_eqb m) mvs) eqn:Ex; [|discriminate].
    destruct (bg_apply_move pr st m (dice_rng d0 d1)) as [[st2 r2]|] eqn:Ea; cbn; [|discriminate].
    intros [= <-]. apply existsb_exists in Ex. destruct Ex as (m' & Hin & Em). apply act_eqb_eq in Em. subst m'.
    eapply api_play; eauto.
Qed.
Lemma run_reach_from pr l : forall st st', reach pr st -> run pr st l = Ok st' -> reach pr st'.
Proof.
  unfold run. induction l as [|o l IH]; cbn [mfold]; intros st st' H E; [congruence|].
  destruct (run_top pr st o) as [st1|] eqn:E1; cbn in E; [|discriminate].
  eapply IH; [|exact E]. eapply reach_api; [exact H|]. now apply run_top_api in E1.
Qed.
Theorem run_reach pr l st : run pr bg_new l = Ok st -> reach pr st.
Proof. apply run_reach_from. constructor. Qed.

(** ** Proper games: dice are drawn only at the start and by turns passing. *)
Inductive game (pr : profile) : bg -> Prop :=
| game_start r : game pr (fst (bg_roll_die bg_new r))
| game_start_skip r st' r' : bg_skip_turn pr bg_new r = Ok (st', r') -> game pr st'
| game_skip st r st' r' : game pr st -> bg_skip_turn pr st r = Ok (st', r') -> game pr st'
| game_play st mvs m r st' r' : game pr st ->
    bg_valid_moves pr st = Ok mvs -> In m mvs -> bg_apply_move pr st m r = Ok (st', r') -> game pr st'.
Lemma game_reach pr st : game pr st -> reach pr st.
Proof.
  induction 1.
  - eapply reach_api; [constructor|apply api_roll].
  - eapply reach_api; [constructor|eapply api_skip; eauto].
  - eapply reach_api; [eauto|eapply api_skip; eauto].
  - eapply reach_api; [eauto|eapply api_play; eauto].
Qed.
Lemma game_rolled pr st : game pr st -> rolled (roll st).
Proof.
  intros H. induction H as [r|r st' r' E|st r st' r' H IH E|st mvs m r st' r' H IH Ev Hin E].
  - apply (roll_die_spec bg_new r).
  - destruct (skip_spec pr bg_new P1 r eq_refl) as (st2 & r2 & E2 & _ & _ & _ & HR & _). congruence.
  - destruct (reach_inv _ _ (game_reach _ _ H)) as (_ & (s & HM) & _).
    destruct (skip_spec pr st s r HM) as (st2 & r2 & E2 & _ & _ & _ & HR & _). congruence.
  - destruct (reach_inv _ _ (game_reach _ _ H)) as (HW & (s & HM) & _).
    destruct (valid_move_applies pr st s mvs m HW IH HM Ev Hin) as (ms & b' & _ & _ & _ & Hb & _).
    destruct (apply_spec pr st s m r b' HM (Hb pr)) as (st2 & r2 & E2 & _ & _ & Hd & Hn).
    rewrite E in E2. injection E2 as <- <-.
    destruct (Z.eq_dec (fst (roll st)) (snd (roll st))) as [Ed|Ed], (second st) eqn:Es.
    + apply Hn. intros (_ & ?); discriminate.
    + destruct Hd as (-> & _); auto.
    + apply Hn. intros (? & _); auto.
    + apply Hn. intros (? & _); auto.
Qed.
(** the second-play mark implies a double *)
Lemma game_second pr st : game pr st -> second st = true -> fst (roll st) = snd (roll st).
Proof.
  intros H. induction H as [r|r st' r' E|st r st' r' H IH E|st mvs m r st' r' H IH Ev Hin E]; intros Hs.
  - pose proof (roll_die_spec bg_new r) as Hr. cbn zeta in Hr. destruct Hr as (_ & _ & _ & E & _). rewrite E in Hs. discriminate.
  - destruct (skip_spec pr bg_new P1 r eq_refl) as (st2 & r2 & E2 & _ & _ & F & _). congruence.
  - destruct (reach_inv _ _ (game_reach _ _ H)) as (_ & (s & HM) & _).
    destruct (skip_spec pr st s r HM) as (st2 & r2 & E2 & _ & _ & F & _). congruence.
  - destruct (reach_inv _ _ (game_reach _ _ H)) as (HW & (s & HM) & _).
    pose proof (game_rolled _ _ H) as HR.
    destruct (valid_move_applies pr st s mvs m HW HR HM Ev Hin) as (ms & b' & _ & _ & _ & Hb & _).
    destruct (apply_spec pr st s m r b' HM (Hb pr)) as (st2 & r2 & E2 & _ & _ & Hd & Hn).
    rewrite E in E2. injection E2 as <- <-.
    destruct (Z.eq_dec (fst (roll st)) (snd (roll st))) as [Ed|Ed], (second st) eqn:Es.
    + destruct Hn as (_ & F & _); [intros (_ & ?); discriminate|congruence].
    + destruct Hd as (-> & _); auto.
    + destruct Hn as (_ & F & _); [intros (? & _); auto|congruence].
    + destruct Hn as (_ & F & _); [intros (? & _); auto|congruence].
Qed.

(** Executable traces of proper games. *)
Definition is_turn (o : top) : bool := match o with TRoll _ _ => false | _ => true end.
Definition run_game (pr : profile) (d0 d1 : Z) (l : list top) : res bg :=
  if forallb is_turn l then run pr (fst (bg_roll_die bg_new (dice_rng d0 d1))) l else Panic PAssert.
Theorem run_game_game pr d0 d1 l st : run_game pr d0 d1 l = Ok st -> game pr st.
Proof.
  unfold run_game. destruct (forallb is_turn l) eqn:Ht; [|discriminate].
  assert (H0 : game pr (fst (bg_roll_die bg_new (dice_rng d0 d1)))) by constructor.
  revert H0. generalize (fst (bg_roll_die bg_new (dice_rng d0 d1))) as s0. unfold run.
  induction l as [|o l IH]; cbn [mfold forallb] in *; intros s0 H0 E; [congruence|].
  apply andb_true_iff in Ht. destruct Ht as (Ho & Ht).
  destruct (run_top pr s0 o) as [s1|] eqn:E1; cbn in E; [|discriminate].
  apply (IH Ht s1); [|exact E]. destruct o as [a c|a c|m a c]; cbn in *; [discriminate| |].
  - destruct (bg_skip_turn pr s0 (dice_rng a c)) as [[st2 r2]|] eqn:E2; cbn in E1; [|discriminate].
    injection E1 as <-. eapply game_skip; eauto.
  - destruct (bg_valid_moves pr s0) as [mvs|] eqn:Ev; cbn in E1; [|discriminate].
    destruct (existsb (act_eqb m) mvs) eqn:Ex; [|discriminate].
    destruct (bg_apply_move pr s0 m (dice_rng a c)) as [[st2 r2]|] eqn:Ea; cbn in E1; [|discriminate].
    injection E1 as <-. apply existsb_exists in Ex. destruct Ex as (m' & Hin & Em). apply act_eqb_eq in Em. subst m'.
    eapply game_play; eauto.
Qed.
