(** * BgApi: the Backgammon properties at the level of the public API.
    Each theorem here is re-exported by Prop_Bg.v. *)
From Verif Require Import Base BaseFacts BgModel BgSpec BgStep BgGen BgTurn BgReach BgPips BgMirror BgWitness.
From Coq Require Import Permutation.
Require Import ZifyBool ZifyNat.

Lemma reach_WF pr st : reach pr st -> WF (bgboard st).
Proof. intros H. apply (reach_inv pr st H). Qed.
Lemma list_eq_nil_dec {A} (l : list A) : l = [] \/ l <> [].
Proof. destruct l; [now left|right; discriminate]. Qed.
Lemma game_hyps pr st : game pr st -> WF (bgboard st) /\ rolled (roll st) /\ exists s, mover st s.
Proof.
  intros H. destruct (reach_inv _ _ (game_reach _ _ H)) as (HW & HM & _).
  split; [auto|]. split; [eapply game_rolled; eauto|auto].
Qed.

Theorem C01_conservation_lemma : forall pr st, reach pr st ->
  length (pts (bgboard st)) = 24%nat
  /\ 0 <= hit1 (bgboard st) /\ 0 <= hit2 (bgboard st) /\ 0 <= col1 (bgboard st) /\ 0 <= col2 (bgboard st)
  /\ (forall s, checkers (view (bgboard st)) s = 15)
  /\ (forall pr', bg_is_valid pr' st = Ok tt).
Proof.
  intros pr st H. pose proof (reach_WF pr st H) as HW.
  pose proof HW as (Hl & H1 & H2 & H3 & H4 & H5 & H6).
  do 5 (split; [auto|]). split; [intros []; auto|]. intros pr'. now apply is_valid_ok.
Qed.

Theorem C02_no_panic_lemma : forall pr st, reach pr st -> rolled (roll st) ->
  exists mvs, (forall pr', bg_valid_moves pr' st = Ok mvs)
  /\ forall m r, In m mvs -> exists st' r', forall pr', bg_apply_move pr' st m r = Ok (st', r').
Proof.
  intros pr st H HR. destruct (reach_inv _ _ H) as (HW & (s & HM) & _).
  destruct (valid_moves_spec Debug st s HW HR HM) as (mvs & E & _).
  assert (EE : forall pr', bg_valid_moves pr' st = Ok mvs).
  { intros pr'. now rewrite (valid_moves_profile pr' Debug st s). }
  exists mvs. split; [exact EE|]. intros m r Hin.
  destruct (valid_move_applies Debug st s mvs m HW HR HM E Hin) as (ms & b' & _ & _ & _ & Hb & _).
  destruct (apply_spec Debug st s m r b' HM (Hb Debug)) as (st' & r' & Ea & _).
  exists st', r'. intros pr'. rewrite <- Ea. unfold bg_apply_move. rewrite !Hb. cbn [bind].
  unfold mover in HM. rewrite HM. destruct (_ && _); [reflexivity|]. now rewrite !i8_sign.
Qed.

Theorem C02_before_roll_lemma : forall pr st, (roll st = (0, 0) -> bg_valid_moves pr st = Panic PAssert)
  /\ (reach pr st -> roll st = (0, 0) \/ rolled (roll st)).
Proof.
  intros pr st. split.
  - intros E. unfold bg_valid_moves. rewrite E. reflexivity.
  - intros H. now apply (reach_inv pr st H).
Qed.

Theorem C03_sound_lemma : forall pr st s mvs m,
  WF (bgboard st) -> rolled (roll st) -> mover st s ->
  bg_valid_moves pr st = Ok mvs -> In m mvs ->
  exists ms, ms <> [] /\ m = map act_of ms
    /\ play (loose s) (stuck s) s [fst (roll st); snd (roll st)] (view (bgboard st)) ms.
Proof.
  intros pr st s mvs m HW HR HM E Hin.
  destruct (valid_moves_spec pr st s HW HR HM) as (mvs' & E' & Hs & _). rewrite E in E'. injection E' as <-.
  destruct (Hs m Hin) as (ms & Hne & Em & Hp). exists ms. split; [auto|]. split; [auto|].
  apply (gplay_sound s (dice_of (roll st))); auto; [now apply WF_nn|now apply dice_of_die].
Qed.

Theorem C04_bear_off_guarded_lemma : forall pr st s mvs m,
  WF (bgboard st) -> rolled (roll st) -> mover st s -> clear_home (view (bgboard st)) s ->
  bg_valid_moves pr st = Ok mvs -> In m mvs ->
  exists ms, ms <> [] /\ m = map act_of ms
    /\ turn s [fst (roll st); snd (roll st)] (view (bgboard st)) ms.
Proof.
  intros pr st s mvs m HW HR HM HC E Hin.
  destruct (valid_moves_spec pr st s HW HR HM) as (mvs' & E' & Hs & _). rewrite E in E'. injection E' as <-.
  destruct (Hs m Hin) as (ms & Hne & Em & Hp). exists ms. split; [auto|]. split; [auto|].
  apply (gplay_turn s (dice_of (roll st))); auto; [now apply WF_nn|now apply dice_of_die].
Qed.

Theorem C04_bear_off_refuted_lemma : forall pr s, exists st mvs i rest,
  game pr st /\ mover st s /\ bg_valid_moves pr st = Ok mvs
  /\ In ((i, -1) :: rest) mvs
  /\ forall d, In d [fst (roll st); snd (roll st)] -> ~ legal s d (view (bgboard st)) (Off i).
Proof.
  intros pr [].
  - exists st_illegal1, mvs_illegal1, 2, [(3, -1)]. split; [apply game_illegal1|]. split; [reflexivity|].
    split; [apply moves_illegal1|]. split; [now left|].
    intros d [<-|[<-|[]]]; apply not_legal; reflexivity.
  - exists st_illegal2, mvs_illegal2, 21, [(18, 23)]. split; [apply game_illegal2|]. split; [reflexivity|].
    split; [apply moves_illegal2|]. split; [right; right; now left|].
    intros d [<-|[<-|[]]]; apply not_legal; reflexivity.
Qed.

Theorem C05_complete_lemma : forall pr st s mvs ms,
  WF (bgboard st) -> rolled (roll st) -> mover st s -> clear_home (view (bgboard st)) s ->
  bg_valid_moves pr st = Ok mvs -> ms <> [] ->
  turn s [fst (roll st); snd (roll st)] (view (bgboard st)) ms ->
  exists m b', In m mvs /\ get_next_state pr (bgboard st) m (player st) = Ok b'
    /\ pos_eq (view b') (effects (view (bgboard st)) s ms).
Proof.
  intros pr st s mvs ms HW HR HM HC E Hne HT.
  destruct (valid_moves_spec pr st s HW HR HM) as (mvs' & E' & _ & Hc & _). rewrite E in E'. injection E' as <-.
  assert (Hp : gplay s (dice_of (roll st)) (view (bgboard st)) ms).
  { apply gplay_turn; auto; [now apply WF_nn|now apply dice_of_die]. }
  destruct (Hc ms Hne Hp) as (m & Hin & Em).
  pose proof (gplay_playable _ _ _ _ (dice_of_die _ HR) Hp) as HP.
  destruct (get_next_state_refines pr s ms _ HW HP) as (b' & Eb & _ & Hv).
  exists m, b'. split; [auto|]. split; [|auto]. rewrite Em. unfold mover in HM. now rewrite HM.
Qed.

Theorem C05_legal_play_extends_lemma : forall pr st s mvs,
  WF (bgboard st) -> rolled (roll st) -> mover st s -> bg_valid_moves pr st = Ok mvs ->
  (forall ms, ms <> [] ->
     play (legal s) (fun _ _ => True) s [fst (roll st); snd (roll st)] (view (bgboard st)) ms ->
     exists ms' m b', In m mvs /\ get_next_state pr (bgboard st) m (player st) = Ok b'
       /\ pos_eq (view b') (effects (view (bgboard st)) s (ms ++ ms')))
  /\ (mvs = [] -> stuck s [fst (roll st); snd (roll st)] (view (bgboard st))).
Proof.
  intros pr st s mvs HW HR HM E.
  destruct (valid_moves_spec pr st s HW HR HM) as (mvs' & E' & _ & Hc & _ & Hz). rewrite E in E'. injection E' as <-.
  split.
  - intros ms Hne HT.
    destruct (legal_play_extends s ms (dice_of (roll st)) (bgboard st) HW (dice_of_die _ HR) HT) as (ms' & Hp).
    assert (Hne' : ms ++ ms' <> []) by (destruct ms; [contradiction|discriminate]).
    destruct (Hc _ Hne' Hp) as (m & Hin & Em).
    pose proof (gplay_playable _ _ _ _ (dice_of_die _ HR) Hp) as HP.
    destruct (get_next_state_refines pr s _ _ HW HP) as (b' & Eb & _ & Hv).
    exists ms', m, b'. split; [auto|]. split; [|auto]. rewrite Em. unfold mover in HM. now rewrite HM.
  - intros Hm. apply (gstuck_stuck s (dice_of (roll st))); [now apply WF_nn|now apply dice_of_die|now apply Hz].
Qed.

Theorem C05_exact_refuted_lemma : forall pr,
  (exists st mvs ms s, game pr st /\ mover st s /\ bg_valid_moves pr st = Ok mvs /\ ms <> []
     /\ turn s [fst (roll st); snd (roll st)] (view (bgboard st)) ms
     /\ forall m b', In m mvs -> get_next_state pr (bgboard st) m (player st) = Ok b' ->
          ~ pos_eq (view b') (effects (view (bgboard st)) s ms))
  /\ (exists st mvs s, game pr st /\ mover st s /\ bg_valid_moves pr st = Ok mvs /\ mvs <> []
     /\ stuck s [fst (roll st); snd (roll st)] (view (bgboard st))).
Proof.
  intros pr. split.
  - exists st_incomplete, mvs_incomplete, [Move 5 2], P1. split; [apply game_incomplete|]. split; [reflexivity|].
    split; [apply moves_incomplete|]. split; [discriminate|]. split.
    + apply (play_step _ _ _ [] 3 [5]).
      * apply legalb_spec. reflexivity.
      * apply play_stop. apply stuckb_spec. vm_compute. reflexivity.
    + intros m b' Hin Eb (_ & _ & Ho). specialize (Ho P1).
      destruct Hin as [<-|[<-|[]]]; destruct pr; vm_compute in Eb; injection Eb as <-; vm_compute in Ho; discriminate.
  - exists st_legalstuck, mvs_legalstuck, P1. split; [apply game_legalstuck|]. split; [reflexivity|].
    split; [apply moves_legalstuck|]. split; [discriminate|]. apply stuckb_spec. vm_compute. reflexivity.
Qed.

Theorem C06_distinct_lemma : forall pr st s mvs,
  WF (bgboard st) -> rolled (roll st) -> mover st s -> bg_valid_moves pr st = Ok mvs ->
  NoDup (map (fun m => get_next_state pr (bgboard st) m (player st)) mvs)
  /\ NoDup mvs
  /\ (forall m, In m mvs -> exists b', get_next_state pr (bgboard st) m (player st) = Ok b')
  /\ (forall m, In m mvs -> (length m = 1 \/ length m = 2)%nat)
  /\ ~ In [] mvs.
Proof.
  intros pr st s mvs HW HR HM E.
  destruct (valid_moves_spec pr st s HW HR HM) as (mvs' & E' & Hs & _ & Hd & _). rewrite E in E'. injection E' as <-.
  split; [exact Hd|]. split; [eapply NoDup_map_inv; exact Hd|].
  split.
  { intros m Hin. destruct (valid_move_applies pr st s mvs m HW HR HM E Hin) as (ms & b' & _ & _ & _ & Hb & _). eauto. }
  assert (HL : forall m, In m mvs -> (length m = 1 \/ length m = 2)%nat).
  { intros m Hin. destruct (Hs m Hin) as (ms & Hne & -> & Hp). rewrite map_length.
    pose proof (play_length _ _ _ _ _ _ Hp) as HL. cbn in HL. destruct ms as [|a [|b [|c l]]]; cbn in *; auto; try lia. contradiction. }
  split; [exact HL|]. intros Hin. specialize (HL _ Hin). cbn in HL. lia.
Qed.

Theorem C08_both_dice_not_forced_lemma : forall pr, exists st mvs s ms a,
  game pr st /\ mover st s /\ bg_valid_moves pr st = Ok mvs
  /\ turn s [fst (roll st); snd (roll st)] (view (bgboard st)) ms /\ length ms = 2%nat /\ In (map act_of ms) mvs
  /\ In [a] mvs.
Proof.
  intros pr. exists st_onestep, mvs_onestep, P2, [Move 0 2; Move 2 8], (16, 18).
  split; [apply game_onestep|]. split; [reflexivity|]. split; [apply moves_onestep|]. split.
  - apply (play_step _ _ _ [6] 2 []); [apply legalb_spec; reflexivity|].
    apply (play_step _ _ _ [] 6 []); [apply legalb_spec; reflexivity|]. apply play_stop. intros d m [].
  - split; [reflexivity|]. split; [now left|]. do 4 right. now left.
Qed.

Theorem C08_higher_die_not_forced_lemma : forall pr, exists st mvs s lo hi m,
  game pr st /\ mover st s /\ bg_valid_moves pr st = Ok mvs
  /\ Permutation [hi; lo] [fst (roll st); snd (roll st)] /\ lo < hi
  /\ (forall ms, play (legal s) (fun _ _ => True) s [fst (roll st); snd (roll st)] (view (bgboard st)) ms ->
       (length ms <= 1)%nat)
  /\ (exists m', legal s hi (view (bgboard st)) m')
  /\ In [act_of m] mvs /\ legal s lo (view (bgboard st)) m /\ ~ legal s hi (view (bgboard st)) m.
Proof.
  intros pr. exists st_lowdie, mvs_lowdie, P2, 5, 6, (Move 16 21).
  split; [apply game_lowdie|]. split; [reflexivity|]. split; [apply moves_lowdie|]. split; [apply perm_swap|].
  split; [lia|]. split.
  - intros ms. apply no_two; vm_compute; reflexivity.
  - split; [exists (Move 16 22); apply legalb_spec; reflexivity|].
    split; [now left|]. split; [apply legalb_spec; reflexivity|apply not_legal; reflexivity].
Qed.

Theorem C09_mirror_lemma : forall pr st s mvs mvs',
  WF (bgboard st) -> rolled (roll st) -> mover st s -> clear_home (view (bgboard st)) s ->
  bg_valid_moves pr st = Ok mvs ->
  bg_valid_moves pr (mkBg (mirror (bgboard st)) (roll st) (- player st) (second st) (bgid st)) = Ok mvs' ->
  forall b',
    (exists m, In m mvs /\ get_next_state pr (bgboard st) m (player st) = Ok b') <->
    (exists m', In m' mvs' /\ get_next_state pr (mirror (bgboard st)) m' (- player st) = Ok (mirror b')).
Proof.
  intros pr st s mvs mvs' HW HR HM HC E E' b'. split.
  - intros (m & Hin & Eb). apply (moves_mirror pr st s mvs mvs' HW HR HM HC E E' m b' Hin Eb).
  - intros (m & Hin & Eb).
    set (st' := mirror_st st).
    assert (EE : mirror_st st' = st).
    { unfold st', mirror_st. cbn. rewrite mirror_mirror, Z.opp_involutive. now destruct st. }
    destruct (moves_mirror pr st' (opp s) mvs' mvs) with (m := m) (b' := mirror b') as (m' & Hin' & Eb').
    + now apply WF_mirror.
    + exact HR.
    + unfold mover in *. cbn. rewrite HM. now destruct s.
    + assert (HV := view_mirror (bgboard st) ltac:(apply HW)).
      pose proof (clear_home_mirror _ _ HC) as HC'. intros i Hi Hp. destruct HV as (HV & _). cbn [st' mirror_st bgboard].
      rewrite HV. now apply HC'.
    + exact E'.
    + rewrite EE. exact E.
    + exact Hin.
    + exact Eb.
    + exists m'. split; [exact Hin'|]. cbn in Eb'. now rewrite !mirror_mirror, Z.opp_involutive in Eb'.
Qed.

Theorem C09_mirror_refuted_lemma : forall pr, exists st mvs mvs' m b',
  game pr st /\ bg_valid_moves pr st = Ok mvs
  /\ bg_valid_moves pr (mkBg (mirror (bgboard st)) (roll st) (- player st) (second st) (bgid st)) = Ok mvs'
  /\ In m mvs /\ get_next_state pr (bgboard st) m (player st) = Ok b'
  /\ forall m', In m' mvs' -> get_next_state pr (mirror (bgboard st)) m' (- player st) <> Ok (mirror b').
Proof.
  intros pr. exists st_asym1, mvs_asym1.
  assert (HX : exists mvs', (forall pr, bg_valid_moves pr (mirror_st st_asym1) = Ok mvs') /\
    exists m b', In m mvs_asym1 /\ (forall pr, get_next_state pr (bgboard st_asym1) m (player st_asym1) = Ok b') /\
    forallb (fun m' => match get_next_state Debug (mirror (bgboard st_asym1)) m' (- player st_asym1) with
                       | Ok b => negb (board_eqb b (mirror b')) | _ => false end) mvs' = true
    /\ forallb (fun m' => match get_next_state Release (mirror (bgboard st_asym1)) m' (- player st_asym1) with
                       | Ok b => negb (board_eqb b (mirror b')) | _ => false end) mvs' = true).
  { eexists. split; [intros []; vm_compute; reflexivity|].
    exists [(4, 0); (2, -1)]. eexists. split; [now left|]. split; [intros []; vm_compute; reflexivity|].
    split; vm_compute; reflexivity. }
  destruct HX as (mvs' & E & m & b' & Hin & Eb & F1 & F2). exists mvs', m, b'.
  split; [apply game_asym1|]. split; [apply moves_asym1|]. split; [apply E|]. split; [exact Hin|]. split; [apply Eb|].
  intros m' Hm' EE. rewrite forallb_forall in F1, F2. specialize (F1 m' Hm'). specialize (F2 m' Hm').
  destruct pr; rewrite EE in *; [rewrite (proj2 (board_eqb_eq _ _) eq_refl) in F1; discriminate|rewrite (proj2 (board_eqb_eq _ _) eq_refl) in F2; discriminate].
Qed.

Theorem C10_next_state_lemma : forall pr b s ms, WF b -> seq_playable s (view b) ms ->
  exists b', get_next_state pr b (map act_of ms) (sign s) = Ok b' /\ WF b'
             /\ pos_eq (view b') (effects (view b) s ms).
Proof.
  intros pr b s ms. apply get_next_state_refines.
Qed.

Theorem C10_empty_lemma : forall pr b p, get_next_state pr b [] p = Ok b.
Proof.
  reflexivity.
Qed.

Theorem C11_apply_move_lemma : forall pr st s m r b', mover st s -> get_next_state pr (bgboard st) m (player st) = Ok b' ->
  (fst (roll st) = snd (roll st) -> second st = false ->
     bg_apply_move pr st m r = Ok (mkBg b' (roll st) (player st) true (bgid st), r))
  /\ (fst (roll st) <> snd (roll st) \/ second st = true ->
     exists st' r', bg_apply_move pr st m r = Ok (st', r') /\ bgboard st' = b'
       /\ mover st' (opp s) /\ second st' = false /\ rolled (roll st') /\ bgid st' = bgid st).
Proof.
  intros pr st s m r b' HM Eb. destruct (apply_spec pr st s m r b' HM Eb) as (st' & r' & Ea & Hb & Hi & Hd & Hn).
  split.
  - intros E1 E2. destruct Hd as (-> & ->); auto.
  - intros Ho. exists st', r'. destruct Hn as (H1 & H2 & H3); [intros (E1 & E2); destruct Ho; congruence|]. auto 7.
Qed.

Theorem C11_skip_turn_lemma : forall pr st s r, mover st s ->
  exists st' r', bg_skip_turn pr st r = Ok (st', r') /\ bgboard st' = bgboard st /\ mover st' (opp s)
                 /\ second st' = false /\ rolled (roll st') /\ bgid st' = bgid st.
Proof.
  intros pr st s r. apply skip_spec.
Qed.

Theorem C11_second_implies_double_lemma : forall pr st, game pr st -> rolled (roll st) /\ (second st = true -> fst (roll st) = snd (roll st)).
Proof.
  intros pr st H. split; [eapply game_rolled; eauto|eapply game_second; eauto].
Qed.

Theorem C11_all_dice_lemma : forall st d0 d1, die d0 -> die d1 -> exists r, roll (fst (bg_roll_die st r)) = (d0, d1).
Proof.
  intros st d0 d1 H0 H1. exists (dice_rng d0 d1). unfold die in *.
  unfold bg_roll_die, gen_range, draw, dice_rng. cbn. f_equal; rewrite Z2N.id by lia; rewrite Z.mod_small by lia; lia.
Qed.

Theorem C12_double_sound_lemma : forall pr st s d mvs1 m1 r st1 r1 mvs2 m2,
  WF (bgboard st) -> die d -> roll st = (d, d) -> second st = false -> mover st s ->
  clear_home (view (bgboard st)) s ->
  bg_valid_moves pr st = Ok mvs1 -> In m1 mvs1 -> bg_apply_move pr st m1 r = Ok (st1, r1) ->
  bg_valid_moves pr st1 = Ok mvs2 -> In m2 mvs2 \/ (mvs2 = [] /\ m2 = []) ->
  player st1 = player st /\ roll st1 = (d, d) /\ second st1 = true /\
  exists ms, m1 ++ m2 = map act_of ms /\ turn s [d; d; d; d] (view (bgboard st)) ms.
Proof.
  intros pr st s d mvs1 m1 r st1 r1 mvs2 m2 HW Hd HR0 Hs HM HC E1 Hin1 Ea E2 H2.
  assert (HR : rolled (roll st)) by (rewrite HR0; split; exact Hd).
  destruct (valid_move_applies pr st s mvs1 m1 HW HR HM E1 Hin1) as (ms1 & b1 & Hne & -> & Hp & Hb & HW1 & Hv1).
  destruct (apply_spec pr st s _ r b1 HM (Hb pr)) as (st' & r' & Ea' & Hb' & _ & Hdd & _).
  rewrite Ea in Ea'. injection Ea' as <- <-.
  destruct Hdd as (-> & _); [rewrite HR0; auto|]. cbn [player roll second bgboard] in *.
  do 3 (split; [auto|]).
  set (st1 := mkBg b1 (roll st) (player st) true (bgid st)) in *.
  assert (HT1 : turn s [d; d] (view (bgboard st)) ms1).
  { unfold dice_of in Hp. rewrite HR0 in Hp. apply gplay_turn; [now apply WF_nn|auto| |exact Hp].
    constructor; [auto|]. constructor; [auto|constructor]. }
  assert (HC1 : clear_home (view b1) s).
  { pose proof (clear_home_effects s ms1 _ HC) as HCe. intros i Hi Hpi. destruct Hv1 as (Hv1 & _). rewrite Hv1. now apply HCe. }
  assert (HM1 : mover st1 s) by exact HM.
  destruct H2 as [Hin2|(Emp & ->)].
  - destruct (valid_move_applies pr st1 s mvs2 m2 HW1 HR HM1 E2 Hin2) as (ms2 & b2 & Hne2 & -> & Hp2 & _).
    exists (ms1 ++ ms2). split; [now rewrite map_app|]. apply turn_double. exists ms1, ms2. split; [auto|]. split; [auto|].
    apply (turn_eq s [d; d] (view b1)); [exact Hv1|].
    unfold dice_of in Hp2. cbn [st1 roll bgboard] in Hp2. rewrite HR0 in Hp2. apply gplay_turn; [now apply WF_nn|auto| |exact Hp2].
    constructor; [auto|]. constructor; [auto|constructor].
  - exists ms1. split; [now rewrite app_nil_r|]. apply turn_double. exists ms1, []. split; [now rewrite app_nil_r|].
    split; [auto|]. apply turn_nil_stuck.
    destruct (valid_moves_spec pr st1 s HW1 HR HM1) as (mvs' & E' & _ & _ & _ & Hz). rewrite E2 in E'. injection E' as <-.
    assert (HG : gstuck s (dice_of (roll st1)) (view b1)) by now apply Hz.
    intros x m Hx HL. unfold dice_of in HG. cbn [st1 roll] in HG. rewrite HR0 in HG. apply (HG x m Hx).
    apply legal_gen; [now apply WF_nn|destruct Hx as [<-|[<-|[]]]; auto|].
    assert (HV : pos_eq (effects (view (bgboard st)) s ms1) (view b1)) by now apply pos_eq_sym.
    now apply (legal_eq _ _ _ _ _ HV).
Qed.

Theorem C12_double_complete_lemma : forall pr st s d mvs1 ms,
  WF (bgboard st) -> die d -> roll st = (d, d) -> second st = false -> mover st s ->
  clear_home (view (bgboard st)) s -> bg_valid_moves pr st = Ok mvs1 ->
  ms <> [] -> turn s [d; d; d; d] (view (bgboard st)) ms ->
  exists m1 st1 mvs2 m2 b', In m1 mvs1
    /\ (forall r, bg_apply_move pr st m1 r = Ok (st1, r)) /\ bg_valid_moves pr st1 = Ok mvs2
    /\ (In m2 mvs2 \/ (mvs2 = [] /\ m2 = []))
    /\ get_next_state pr (bgboard st1) m2 (player st1) = Ok b'
    /\ pos_eq (view b') (effects (view (bgboard st)) s ms).
Proof.
  intros pr st s d mvs1 ms HW Hd HR0 Hs HM HC E1 Hne HT.
  assert (HR : rolled (roll st)) by (rewrite HR0; split; exact Hd).
  apply turn_double in HT. destruct HT as (ms1 & ms2 & -> & HT1 & HT2).
  destruct (list_eq_nil_dec ms1) as [-> | Hne1].
  { exfalso. apply turn_nil_stuck in HT1. cbn [effects fold_left app] in *. apply Hne. now apply (stuck_turn_nil s [d; d] (view (bgboard st))). }
  destruct (C05_complete_lemma pr st s mvs1 ms1) as (m1 & b1 & Hin1 & Eb1 & Hv1); auto.
  { rewrite HR0. exact HT1. }
  destruct (valid_move_applies pr st s mvs1 m1 HW HR HM E1 Hin1) as (ms1' & b1' & _ & _ & _ & Hb & HW1 & _).
  assert (b1' = b1) as -> by (rewrite Hb in Eb1; congruence).
  set (st1 := mkBg b1 (roll st) (player st) true (bgid st)).
  assert (HC1 : clear_home (view b1) s).
  { pose proof (clear_home_effects s ms1 _ HC) as HCe. intros i Hi Hpi. destruct Hv1 as (Hv1 & _). rewrite Hv1. now apply HCe. }
  assert (HM1 : mover st1 s) by exact HM.
  destruct (valid_moves_spec pr st1 s HW1 HR HM1) as (mvs2 & E2 & _ & _ & _ & Hz).
  assert (HT2' : turn s [d; d] (view b1) ms2) by (eapply turn_eq; [apply pos_eq_sym, Hv1|exact HT2]).
  assert (Ha : forall r, bg_apply_move pr st m1 r = Ok (st1, r)).
  { intros r. destruct (apply_spec pr st s m1 r b1 HM Eb1) as (st' & r' & Ea' & _ & _ & Hdd & _).
    destruct Hdd as (-> & ->); [rewrite HR0; auto|]. exact Ea'. }
  destruct (list_eq_nil_dec ms2) as [-> | Hne2].
  - exists m1, st1, mvs2, [], b1. split; [auto|]. split; [auto|]. split; [auto|]. split.
    + right. split; [|auto]. apply Hz. unfold dice_of. cbn [st1 roll bgboard]. rewrite HR0.
      apply stuck_gstuck_clear; [now apply WF_nn|auto|]. now apply turn_nil_stuck in HT2'.
    + split; [reflexivity|]. now rewrite app_nil_r.
  - destruct (C05_complete_lemma pr st1 s mvs2 ms2) as (m2 & b2 & Hin2 & Eb2 & Hv2); auto.
    { cbn [st1 roll bgboard]. rewrite HR0. exact HT2'. }
    exists m1, st1, mvs2, m2, b2. split; [auto|]. split; [auto|]. split; [auto|]. split; [auto|]. split; [auto|].
    eapply pos_eq_trans; [exact Hv2|]. cbn [st1 bgboard]. unfold effects at 2. rewrite fold_left_app.
    apply effects_eq. exact Hv1.
Qed.

Theorem C13_pips_lemma : forall pr st s mvs m b',
  WF (bgboard st) -> rolled (roll st) -> mover st s -> bg_valid_moves pr st = Ok mvs -> In m mvs ->
  get_next_state pr (bgboard st) m (player st) = Ok b' ->
  let q := view (bgboard st) in let q' := view b' in
  Z.of_nat (length m) <= pips q s - pips q' s <= fst (roll st) + snd (roll st)
  /\ ((forall f, ~ In (f, -1) m) ->
      exists used rest, Permutation [fst (roll st); snd (roll st)] (used ++ rest) /\ length used = length m
        /\ pips q s - pips q' s = fold_right Z.add 0 used)
  /\ pips q (opp s) <= pips q' (opp s)
  /\ (bar q' (opp s) = bar q (opp s) -> pips q' (opp s) = pips q (opp s)).
Proof.
  intros pr st s mvs m b' HW HR HM E Hin Eb. cbv zeta.
  destruct (valid_move_applies pr st s mvs m HW HR HM E Hin) as (ms & b2 & Hne & -> & Hp & Hb & HW' & Hv).
  rewrite Hb in Eb. injection Eb as ->.
  pose proof (gplay_sound s _ _ _ (WF_nn _ HW) (dice_of_die _ HR) Hp) as HL.
  destruct (play_pips _ s _ _ ms (WF_nn _ HW) (dice_of_die _ HR) HL) as (H1 & H2 & H3 & H4 & H5).
  rewrite !(pips_eq _ _ _ Hv). rewrite map_length.
  assert (Hbar : forall x, bar (view b') x = bar (effects (view (bgboard st)) s ms) x) by apply Hv. rewrite Hbar.
  unfold dice_of in *. cbn [total] in H1. split; [lia|]. split; [|split; [exact H3|exact H5]].
  intros Hno. destruct H2 as (used & rest & HP & HLn & HE).
  { apply forallb_forall. intros m Hm. destruct m as [t|f t|f]; cbn; auto. exfalso. apply (Hno f).
    apply in_map_iff. exists (Off f). auto. }
  exists used, rest. split; [auto|]. split; [auto|]. rewrite HE. clear. induction used; cbn; [auto|]. now rewrite IHused.
Qed.

Theorem C14_check_win_lemma : forall pr st s, reach pr st ->
  (check_win (bgboard st) (sign s) = true <->
     (forall i, men (view (bgboard st)) s i = 0) /\ bar (view (bgboard st)) s = 0)
  /\ (check_win (bgboard st) (sign s) = true -> mover st s -> rolled (roll st) -> bg_valid_moves pr st = Ok []).
Proof.
  intros pr st s H. pose proof (reach_WF pr st H) as HW.
  assert (HI : check_win (bgboard st) (sign s) = true <->
     (forall i, men (view (bgboard st)) s i = 0) /\ bar (view (bgboard st)) s = 0).
  { rewrite <- (wins_iff _ s HW). unfold check_win. destruct s; cbn; apply Z.eqb_eq. }
  split; [exact HI|]. intros Hw HM HR. destruct (valid_moves_spec pr st s HW HR HM) as (mvs & E & _ & _ & _ & Hz).
  rewrite E. f_equal. apply Hz. apply HI in Hw. destruct Hw. now apply no_men_gstuck.
Qed.

Theorem C14_check_winner_lemma : forall pr st, reach_nw pr st ->
  (forall s, bg_check_winner st = Some (sign s) <->
     (forall i, men (view (bgboard st)) s i = 0) /\ bar (view (bgboard st)) s = 0)
  /\ (bg_check_winner st = None \/ bg_check_winner st = Some (-1) \/ bg_check_winner st = Some 1)
  /\ ~ (check_win (bgboard st) (-1) = true /\ check_win (bgboard st) 1 = true)
  /\ (forall p st', bg_check_winner st = Some p -> api_nw pr st st' -> bg_check_winner st' = Some p).
Proof.
  intros pr st H. pose proof (reach_nw_reach _ _ H) as HRe. destruct (reach_inv _ _ HRe) as (HW & HMV & HRL).
  pose proof (reach_nw_one _ _ H) as Hone.
  pose proof (check_winner_off st) as HE.
  split; [|split; [|split]].
  - intros s. rewrite <- (wins_iff _ s HW), HE.
    destruct (Z.eqb_spec (off (view (bgboard st)) P1) 15), (Z.eqb_spec (off (view (bgboard st)) P2) 15), s; cbn [sign]; split; intros; try congruence; try discriminate; exfalso; auto.
  - rewrite HE. destruct (_ =? _); auto. destruct (_ =? _); auto.
  - unfold check_win. cbn. rewrite !Z.eqb_eq. exact Hone.
  - intros p st' Hp Ha. eapply winner_stable; eauto. split; [auto|]. split; auto.
Qed.

Theorem C15_no_deadlock_lemma : forall pr st, reach pr st -> bg_check_winner st = None ->
  exists st' mvs m,
    ((exists r, st' = fst (bg_roll_die st r)) \/ (exists r r', bg_skip_turn pr st r = Ok (st', r')))
    /\ bg_valid_moves pr st' = Ok mvs /\ In m mvs.
Proof.
  intros pr st H Hw. destruct (no_deadlock pr st H Hw) as (d & s & Hd & m & mvs & E & Hin).
  destruct (reach_inv _ _ H) as (_ & (s0 & HM) & _). unfold die in Hd.
  assert (HD : forall b rl p sp i, fst (bg_roll_die (mkBg b rl p sp i) (dice_rng d d)) = mkBg b (d, d) p sp i).
  { intros. unfold bg_roll_die, gen_range, draw, dice_rng. cbn. f_equal. f_equal; rewrite Z2N.id by lia; rewrite Z.mod_small by lia; lia. }
  destruct (side_eqb s s0) eqn:Es.
  - assert (s = s0) as -> by (destruct s, s0; cbn in Es; congruence).
    exists (mkBg (bgboard st) (d, d) (sign s0) (second st) (bgid st)), mvs, m. split; [|split; auto].
    left. exists (dice_rng d d). unfold mover in HM. rewrite <- HM. destruct st as [b rl p sp i]. now rewrite HD.
  - assert (s = opp s0) as -> by (destruct s, s0; cbn in *; congruence).
    exists (mkBg (bgboard st) (d, d) (sign (opp s0)) false (bgid st)), mvs, m. split; [|split; auto].
    right. unfold mover in HM. unfold bg_skip_turn. rewrite HM, i8_sign. cbn [bind].
    exists (dice_rng d d). specialize (HD (bgboard st) (roll st) (sign (opp s0)) false (bgid st)).
    destruct (bg_roll_die _ _) as [st' r'] in *. cbn in HD. subst st'. eauto.
Qed.
