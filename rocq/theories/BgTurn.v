(** * BgTurn: what [get_valid_moves] returns, in rule-book terms. *)
From Verif Require Import Base BaseFacts BgModel BgSpec BgStep BgGen.
From Coq Require Import Permutation.
Require Import ZifyBool ZifyNat.

(** ** Sequences of moves on the board *)
Lemma get_next_state_app pr b l1 l2 p :
  get_next_state pr b (l1 ++ l2) p = (b' <- get_next_state pr b l1 p ;; get_next_state pr b' l2 p).
Proof. apply mfold_app. Qed.

Lemma playable_eq a b s m : pos_eq a b -> playable a s m -> playable b s m.
Proof.
  intros (H1 & H2 & H3). destruct m; cbn; unfold blocked; rewrite ?H1, ?H2; auto.
Qed.
Lemma seq_playable_eq s a b ms : pos_eq a b -> seq_playable s a ms -> seq_playable s b ms.
Proof.
  intros E H. revert b E. induction H as [|q m ms Hm _ IH]; intros b E; constructor.
  - eapply playable_eq; eauto.
  - apply IH. now apply effect_eq.
Qed.

Theorem get_next_state_refines pr s ms : forall b,
  WF b -> seq_playable s (view b) ms ->
  exists b', get_next_state pr b (map act_of ms) (sign s) = Ok b' /\ WF b'
             /\ pos_eq (view b') (effects (view b) s ms).
Proof.
  induction ms as [|m ms IH]; intros b HW H.
  - exists b. split; [reflexivity|]. split; [auto|]. apply pos_eq_refl.
  - inversion H as [|q m' ms' Hm Hms]; subst.
    destruct (next_action_WF pr b s m HW Hm) as (b1 & E & HW1 & Hv).
    destruct (IH b1 HW1) as (b2 & E2 & HW2 & Hv2).
    { eapply seq_playable_eq; [apply pos_eq_sym, Hv|auto]. }
    exists b2. split.
    + unfold get_next_state in *. cbn [map mfold]. rewrite E. cbn [bind]. exact E2.
    + split; [auto|]. eapply pos_eq_trans; [exact Hv2|]. cbn [effects fold_left].
      apply (effects_eq _ _ s ms Hv).
Qed.

Lemma play_seq_playable (L : Z -> pos -> mv -> Prop) (stop : list Z -> pos -> Prop) s dice q ms :
  (forall d q m, die d -> L d q m -> playable q s m) -> Forall die dice ->
  play L stop s dice q ms -> seq_playable s q ms.
Proof.
  intros HL HD H. induction H as [|d1 d d2 q m ms Hm _ IH]; constructor;
    destruct (Forall_remove _ _ _ _ HD); eauto.
Qed.
Lemma gplay_playable s dice q ms : Forall die dice -> gplay s dice q ms -> seq_playable s q ms.
Proof. intros HD. apply play_seq_playable; auto. intros; eapply gen_playable; eauto. Qed.
Lemma turn_playable s dice q ms : Forall die dice -> turn s dice q ms -> seq_playable s q ms.
Proof. intros HD. apply play_seq_playable; auto. intros; eapply legal_playable; eauto. Qed.

Lemma play_length (L : Z -> pos -> mv -> Prop) (stop : list Z -> pos -> Prop) s dice q ms :
  play L stop s dice q ms -> (length ms <= length dice)%nat.
Proof.
  intros H. induction H as [|d1 d d2 q m ms Hm _ IH]; cbn; [lia|].
  rewrite app_length in *. cbn [length]. lia.
Qed.
Lemma play_mono (L L' : Z -> pos -> mv -> Prop) (stop stop' : list Z -> pos -> Prop) s (P : pos -> Prop) dice q ms :
  Forall die dice ->
  (forall d q m, die d -> P q -> L d q m -> L' d q m /\ P (effect q s m)) ->
  (forall dice q, Forall die dice -> P q -> stop dice q -> stop' dice q) ->
  P q -> play L stop s dice q ms -> play L' stop' s dice q ms.
Proof.
  intros HD HL HS HP H. induction H as [dice q Hs|d1 d d2 q m ms Hm _ IH].
  - apply play_stop; auto.
  - destruct (Forall_remove _ _ _ _ HD) as (HD' & Hd).
    destruct (HL d q m Hd HP Hm) as (HL' & HP'). apply play_step; auto.
Qed.

(** ** Equality of boards *)
Lemma list_eqb_eq a b : list_eqb a b = true <-> a = b.
Proof.
  revert b; induction a as [|x a IH]; intros [|y b]; cbn; try (split; congruence).
  rewrite andb_true_iff, Z.eqb_eq, IH. split; [intros (-> & ->); auto|intros [= -> ->]; auto].
Qed.
Lemma board_eqb_eq a b : board_eqb a b = true <-> a = b.
Proof.
  unfold board_eqb. rewrite !andb_true_iff, !Z.eqb_eq, list_eqb_eq. destruct a, b; cbn.
  split; [intros ((((-> & ->) & ->) & ->) & ->); auto|intros [= -> -> -> -> ->]; auto].
Qed.
Lemma view_inj a b :
  length (pts a) = 24%nat -> length (pts b) = 24%nat -> pos_eq (view a) (view b) -> a = b.
Proof.
  intros Ha Hb (H1 & H2 & H3). destruct a as [pa h1 h2 c1 c2], b as [pb h1' h2' c1' c2'].
  pose proof (H2 P1) as E1. pose proof (H2 P2) as E2. pose proof (H3 P1) as E3. pose proof (H3 P2) as E4.
  cbn in E1, E2, E3, E4, Ha, Hb. subst. f_equal. apply (nth_ext _ _ 0 0); [congruence|].
  intros n Hn. pose proof (H1 P1 (Z.of_nat n)) as M1. pose proof (H1 P2 (Z.of_nat n)) as M2.
  rewrite !men_view in M1, M2 by (unfold on_board; lia). cbn [sign pts] in M1, M2.
  unfold at_pt in M1, M2. rewrite Nat2Z.id in M1, M2. lia.
Qed.

(** ** Removing moves that lead to the same board *)
Lemma mfold_singletons pr p s : forall st,
  mfold (fun cur a => get_next_state pr cur [a] p) s st = get_next_state pr st s p.
Proof.
  intros st. unfold get_next_state. apply mfold_ext. intros b a _. cbn. now destruct (next_action pr p b a).
Qed.

(** [out] is an order-preserving selection of [l]. *)
Inductive sublist {A} : list A -> list A -> Prop :=
| sub_nil : sublist [] []
| sub_skip x a b : sublist a b -> sublist a (x :: b)
| sub_keep x a b : sublist a b -> sublist (x :: a) (x :: b).
Lemma sublist_In {A} (a b : list A) x : sublist a b -> In x a -> In x b.
Proof. induction 1; cbn; intuition. Qed.

Lemma dedup_states_spec pr st p seqs : forall seen,
  (forall m, In m seqs -> is_ok (get_next_state pr st m p)) ->
  exists out, dedup_states pr st p seqs seen = Ok out
    /\ sublist out seqs
    /\ (forall m b, In m seqs -> get_next_state pr st m p = Ok b -> ~ In b seen ->
          exists m', In m' out /\ get_next_state pr st m' p = Ok b)
    /\ (forall m b, In m out -> get_next_state pr st m p = Ok b -> ~ In b seen)
    /\ NoDup (map (fun m => get_next_state pr st m p) out).
Proof.
  induction seqs as [|m seqs IH]; intros seen Hok.
  - exists []. split; [reflexivity|]. split; [constructor|]. split; [intros m b []|].
    split; [intros m b []|constructor].
  - cbn [dedup_states]. rewrite mfold_singletons.
    destruct (Hok m (or_introl eq_refl)) as (b & Eb). rewrite Eb. cbn [bind].
    assert (Hok' : forall m, In m seqs -> is_ok (get_next_state pr st m p)) by (intros; apply Hok; now right).
    destruct (existsb (board_eqb b) seen) eqn:E.
    + destruct (IH seen Hok') as (out & E1 & H1 & H2 & H3 & H4). exists out.
      split; [auto|]. split; [now constructor|]. split; [|auto].
      intros m' b' [<-|Hin] Em Hs; [|eauto]. exfalso. apply Hs.
      apply existsb_exists in E. destruct E as (b2 & Hb2 & E). apply board_eqb_eq in E. congruence.
    + destruct (IH (b :: seen) Hok') as (out & E1 & H1 & H2 & H3 & H4). rewrite E1. cbn [bind].
      exists (m :: out). split; [reflexivity|]. split; [now constructor|].
      assert (Hns : ~ In b seen).
      { intros Hb. assert (existsb (board_eqb b) seen = true); [|congruence].
        apply existsb_exists. exists b. split; [auto|now apply board_eqb_eq]. }
      split; [|split].
      * intros m' b' Hin Em Hs. destruct Hin as [<-|Hin].
        -- exists m. split; [now left|auto].
        -- destruct (board_eqb b b') eqn:Eq.
           ++ apply board_eqb_eq in Eq. subst b'. exists m. split; [now left|auto].
           ++ destruct (H2 m' b' Hin Em) as (m2 & ? & ?).
              { intros [->|?]; [|auto]. assert (board_eqb b' b' = true) by now apply board_eqb_eq. congruence. }
              exists m2. split; [now right|auto].
      * intros m' b' [<-|Hin] Em; [congruence|]. intros Hs. apply (H3 m' b' Hin Em). now right.
      * cbn [map]. constructor; [|auto]. intros Hin. apply in_map_iff in Hin. destruct Hin as (m' & Em & Hin).
        rewrite Eb in Em. apply (H3 m' b Hin Em). now left.
Qed.

(** ** [get_valid_moves] *)
Definition dice_of (rl : Z * Z) : list Z := [fst rl; snd rl].
Lemma all_moves_perm rl : Permutation (all_moves rl) (dice_of rl).
Proof. destruct rl as [a c]. unfold all_moves, dice_of. cbn. destruct (c <? a); [apply Permutation_refl|apply perm_swap]. Qed.
Lemma all_moves_die rl : rolled rl -> Forall die (all_moves rl).
Proof. destruct rl as [a c]. intros (H1 & H2). cbn in *. destruct (c <? a); (constructor; [auto|]); (constructor; [auto|constructor]). Qed.
Lemma dice_of_die rl : rolled rl -> Forall die (dice_of rl).
Proof. intros (H1 & H2). constructor; [auto|]. constructor; [auto|constructor]. Qed.

(** State of the mover. *)
Definition mover (st : bg) (s : side) : Prop := player st = sign s.

Theorem valid_moves_spec pr st s :
  WF (bgboard st) -> rolled (roll st) -> mover st s ->
  exists mvs, bg_valid_moves pr st = Ok mvs
    /\ (forall m, In m mvs -> exists ms, ms <> [] /\ m = map act_of ms
                               /\ gplay s (dice_of (roll st)) (view (bgboard st)) ms)
    /\ (forall ms, ms <> [] -> gplay s (dice_of (roll st)) (view (bgboard st)) ms ->
          exists m, In m mvs /\ get_next_state pr (bgboard st) m (player st)
                                = get_next_state pr (bgboard st) (map act_of ms) (player st))
    /\ NoDup (map (fun m => get_next_state pr (bgboard st) m (player st)) mvs)
    /\ (mvs = [] <-> gstuck s (dice_of (roll st)) (view (bgboard st))).
Proof.
  intros HW HR HM. unfold mover in HM. unfold bg_valid_moves.
  assert ((fst (roll st) =? 0) && (snd (roll st) =? 0) = false) as ->.
  { destruct HR as (H1 & H2). unfold die in *. lia. }
  pose proof (all_moves_die _ HR) as HD. pose proof (all_moves_perm (roll st)) as HP.
  destruct (action_trees_spec pr s 3 (all_moves (roll st)) (bgboard st) HW HD) as (ts & Ets & Hnil & Hseq).
  { rewrite (Permutation_length HP). cbn. lia. }
  rewrite HM, Ets. cbn [bind].
  assert (GP : forall ms, gplay s (all_moves (roll st)) (view (bgboard st)) ms <->
                          gplay s (dice_of (roll st)) (view (bgboard st)) ms).
  { intros ms. split; apply play_perm; auto; try (intros; eapply gstuck_perm; eauto).
    now apply Permutation_sym. }
  assert (Hok : forall m, In m (extract_sequences_list ts) -> is_ok (get_next_state pr (bgboard st) m (sign s))).
  { intros m Hm. apply Hseq in Hm. destruct Hm as (ms & _ & -> & Hp).
    destruct (get_next_state_refines pr s ms (bgboard st) HW) as (b' & E & _).
    - eapply gplay_playable; eauto.
    - exists b'. exact E. }
  destruct (dedup_states_spec pr (bgboard st) (sign s) (extract_sequences_list ts) [] Hok)
    as (out & E & Hsub & Hcov & _ & Hnd).
  exists out. split; [exact E|]. split; [|split; [|split; [exact Hnd|]]].
  - intros m Hm. apply (sublist_In _ _ _ Hsub) in Hm. apply Hseq in Hm.
    destruct Hm as (ms & H1 & H2 & H3). exists ms. split; [auto|]. split; [auto|]. now apply GP.
  - intros ms Hne Hp. apply GP in Hp.
    assert (Hin : In (map act_of ms) (extract_sequences_list ts)) by (apply Hseq; eauto).
    destruct (Hok _ Hin) as (b' & Eb). rewrite Eb. apply (Hcov _ b' Hin Eb). intros [].
  - split.
    + intros ->. destruct ts as [|n ts].
      * eapply gstuck_perm; [exact HP|]. now apply Hnil.
      * exfalso. assert (exists m, In m (extract_sequences_list (n :: ts))) as (m & Hm).
        { unfold extract_sequences_list. cbn [flat_map]. pose proof (extract_node_nonempty n) as Hn.
          destruct (extract_sequences_node n) as [|m l]; [contradiction|]. exists m. now left. }
        destruct (Hok m Hm) as (b' & Eb). destruct (Hcov m b' Hm Eb) as (m' & [] & _). intros [].
    + intros Hs. apply (gstuck_perm _ _ (all_moves (roll st))) in Hs; [|now apply Permutation_sym].
      apply Hnil in Hs. subst ts. inversion Hsub. reflexivity.
Qed.

(** Profile independence. *)
Lemma next_action_profile b s m : WF b -> playable (view b) s m ->
  forall pr pr', next_action pr (sign s) b (act_of m) = next_action pr' (sign s) b (act_of m).
Proof.
  intros HW Hp pr pr'.
  destruct (next_action_WF pr b s m HW Hp) as (b1 & E1 & HW1 & Hv1).
  destruct (next_action_WF pr' b s m HW Hp) as (b2 & E2 & HW2 & Hv2).
  rewrite E1, E2. f_equal. apply view_inj; try now apply WF_len.
  eapply pos_eq_trans; [exact Hv1|now apply pos_eq_sym].
Qed.

(** ** Guarded: no opposing checker in the mover's home *)
Lemma clear_home_effect s q m : clear_home q s -> clear_home (effect q s m) s.
Proof.
  intros H i Hi Hp. specialize (H i Hi Hp).
  destruct m as [t|f t|f]; cbn; unfold is_blot; destruct s; cbn [opp side_eqb andb] in *; try exact H.
  all: destruct (Z.eqb_spec i t); [|exact H]; destruct (_ =? 1); auto.
Qed.
Lemma nonneg_effect s q m : (forall x i, 0 <= men q x i) -> playable q s m ->
  forall x i, 0 <= men (effect q s m) x i.
Proof.
  intros H Hp x i. destruct m as [t|f t|f]; cbn in *; unfold is_blot; cbn.
  - pose proof (H x i). kill_ifs; lia.
  - destruct Hp as (_ & _ & Hne & Hm & _). pose proof (H x i). pose proof (H x f).
    assert (side_eqb x s = true -> x = s) by (destruct x, s; cbn; congruence).
    destruct (side_eqb x s) eqn:E; cbn [andb].
    + rewrite H2 in * by auto. destruct (Z.eqb_spec i t), (Z.eqb_spec i f); subst; lia.
    + kill_ifs; lia.
  - destruct Hp as (_ & Hm). pose proof (H x i).
    assert (side_eqb x s = true -> x = s) by (destruct x, s; cbn; congruence).
    destruct (side_eqb x s) eqn:E; cbn [andb]; [|lia]. rewrite H1 in * by auto.
    destruct (Z.eqb_spec i f); subst; lia.
Qed.

Definition nonneg (q : pos) : Prop := forall x i, 0 <= men q x i.
Lemma WF_nn b : WF b -> nonneg (view b).
Proof. intros H x. now apply (WF_nonneg b x H). Qed.

Lemma gstuck_stuck s dice q : nonneg q -> Forall die dice -> gstuck s dice q -> stuck s dice q.
Proof.
  intros Hn HD H d m Hd HL. rewrite Forall_forall in HD. apply (H d m Hd). apply legal_gen; auto.
Qed.
Lemma stuck_gstuck_clear s dice q : nonneg q -> clear_home q s -> stuck s dice q -> gstuck s dice q.
Proof. intros Hn HC H d m Hd HL. apply (H d m Hd). now apply gen_legal_clear. Qed.

Theorem gplay_sound s dice q ms :
  nonneg q -> Forall die dice -> gplay s dice q ms -> play (loose s) (stuck s) s dice q ms.
Proof.
  intros Hn HD H. eapply (play_mono (gen s) (loose s) (gstuck s) (stuck s) s nonneg); eauto.
  - intros d q' m Hd Hq Hg. split; [now apply gen_loose|]. unfold nonneg. apply nonneg_effect; auto. eapply gen_playable; eauto.
  - intros dice' q' HD' Hq Hs. now apply gstuck_stuck.
Qed.
Theorem gplay_turn s dice q ms :
  nonneg q -> clear_home q s -> Forall die dice -> (gplay s dice q ms <-> turn s dice q ms).
Proof.
  intros Hn HC HD. split; intros H.
  - eapply (play_mono (gen s) (legal s) (gstuck s) (stuck s) s (fun q => nonneg q /\ clear_home q s)); eauto; cbn beta.
    + intros d q' m Hd (Hq & Hc) Hg. split; [now apply gen_legal_clear|]. split.
      * unfold nonneg. apply nonneg_effect; auto. eapply gen_playable; eauto.
      * now apply clear_home_effect.
    + intros dice' q' HD' (Hq & _) Hs. now apply gstuck_stuck.
  - eapply (play_mono (legal s) (gen s) (stuck s) (gstuck s) s (fun q => nonneg q /\ clear_home q s)); eauto; cbn beta.
    + intros d q' m Hd (Hq & Hc) Hg. split; [now apply legal_gen|]. split.
      * unfold nonneg. apply nonneg_effect; auto. eapply legal_playable; eauto.
      * now apply clear_home_effect.
    + intros dice' q' HD' (Hq & Hc) Hs. now apply stuck_gstuck_clear.
Qed.

(** In general every legal play is an initial part of a generated one: the
    generator may only add steps after it. *)
Lemma gplay_exists s n : forall dice b, (length dice <= n)%nat -> WF b -> Forall die dice ->
  exists ms, gplay s dice (view b) ms.
Proof.
  induction n as [|n IH]; intros dice b Hl HW HD.
  - exists []. apply play_stop. intros d m Hd. destruct dice; [easy|cbn in Hl; lia].
  - destruct (first_actions_spec Debug dice b s HW HD) as ([|[d a] acts] & _ & Hacts).
    + exists []. apply play_stop. intros d m Hd Hg. apply (Hacts (d, act_of m)). exists m. auto.
    + destruct (proj1 (Hacts (d, a)) (or_introl eq_refl)) as (m & Hd & _ & Hg). cbn [fst snd] in *.
      apply in_split in Hd. destruct Hd as (l1 & l2 & ->).
      destruct (Forall_remove _ _ _ _ HD) as (HD' & Hd).
      destruct (next_action_WF Debug b s m HW (gen_playable _ _ _ _ Hd Hg)) as (b' & _ & HW' & Hv).
      destruct (IH (l1 ++ l2) b') as (ms & Hms); auto.
      { rewrite app_length in *. cbn [length] in Hl. lia. }
      exists (m :: ms). apply play_step; [auto|]. eapply gplay_eq; eauto.
Qed.
Definition any_stop (dice : list Z) (q : pos) : Prop := True.
Lemma legal_play_extends s ms : forall dice b,
  WF b -> Forall die dice -> play (legal s) any_stop s dice (view b) ms ->
  exists ms', gplay s dice (view b) (ms ++ ms').
Proof.
  induction ms as [|m ms IH]; intros dice b HW HD H.
  - destruct (gplay_exists s (length dice) dice b) as (ms & Hms); auto. exists ms. exact Hms.
  - inversion H as [|d1 d d2 q m' ms' Hm Hms]; subst.
    destruct (Forall_remove _ _ _ _ HD) as (HD' & Hd).
    destruct (next_action_WF Debug b s m HW (legal_playable _ _ _ _ Hd Hm)) as (b' & _ & HW' & Hv).
    destruct (IH (d1 ++ d2) b' HW' HD') as (ms' & Hms').
    { eapply play_eq; [| |apply pos_eq_sym, Hv|exact Hms]; auto. intros; eapply legal_eq; eauto. }
    exists ms'. cbn [app]. apply play_step.
    + apply legal_gen; auto. now apply WF_nn.
    + eapply gplay_eq; [exact Hv|exact Hms'].
Qed.
