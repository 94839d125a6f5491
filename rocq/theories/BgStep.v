(** * BgStep: one checker move - refinement of [next_action] to the rule book,
    preservation of well-formedness, absence of overflow. *)
From Verif Require Import Base BaseFacts BgModel BgSpec.
Require Import ZifyBool ZifyNat.

(** ** Board access *)
Lemma at_pt_set l n v i :
  0 <= n < Z.of_nat (length l) -> 0 <= i ->
  at_pt (set_nth l (Z.to_nat n) v) i = if i =? n then v else at_pt l i.
Proof.
  intros Hn Hi. unfold at_pt. rewrite nth_set_nth by lia.
  destruct (Z.eqb_spec i n), (Nat.eqb_spec (Z.to_nat i) (Z.to_nat n)); auto; lia.
Qed.
Lemma idx_at l i : 0 <= i < Z.of_nat (length l) -> idx l i = Ok (at_pt l i).
Proof. intros H. unfold at_pt. now apply idx_ok. Qed.

Lemma men_view b s i :
  on_board i -> men (view b) s i = Z.max 0 (sign s * at_pt (pts b) i).
Proof. intros H. unfold on_board in H. cbn. destruct (Z.leb_spec 0 i), (Z.leb_spec i 23); cbn; lia. Qed.
Lemma men_view_off b s i : ~ on_board i -> men (view b) s i = 0.
Proof. intros H. unfold on_board in H. cbn. destruct (Z.leb_spec 0 i), (Z.leb_spec i 23); cbn; lia. Qed.

(** ** Sums over the 24 points *)
Lemma zsum_ext f g : (forall i, on_board i -> f i = g i) -> zsum f = zsum g.
Proof.
  intros H. unfold zsum. f_equal. apply map_ext_in. intros i Hi. apply In_range in Hi.
  apply H. unfold on_board; lia.
Qed.
Lemma zsum_point f g t k :
  on_board t -> (forall i, on_board i -> g i = if i =? t then f i + k else f i) ->
  zsum g = zsum f + k.
Proof.
  intros Ht H. unfold zsum.
  assert (Hin : In t (range 0 24)) by (apply In_range; unfold on_board in Ht; lia).
  assert (Hb : forall i, In i (range 0 24) -> on_board i).
  { intros i Hi. apply In_range in Hi. unfold on_board; lia. }
  pose proof (range_NoDup 0 24) as Hnd.
  revert Hin Hb Hnd. generalize (range 0 24) as l. induction l as [|x l IH]; [easy|].
  intros Hin Hb Hnd. cbn. inversion Hnd as [|? ? Hx Hl]; subst.
  rewrite (H x) by (apply Hb; now left).
  destruct Hin as [->|Hin].
  - rewrite Z.eqb_refl.
    assert (E : map g l = map f l).
    { apply map_ext_in. intros i Hi. rewrite H by (apply Hb; now right).
      destruct (Z.eqb_spec i t); [subst; contradiction|reflexivity]. }
    rewrite E. lia.
  - destruct (Z.eqb_spec x t); [subst; contradiction|].
    rewrite IH; auto; [lia|]. intros; apply Hb; now right.
Qed.
Lemma zsum_nonneg f : (forall i, on_board i -> 0 <= f i) -> 0 <= zsum f.
Proof.
  intros H. unfold zsum. apply lsum_nonneg. intros x Hx. apply in_map_iff in Hx.
  destruct Hx as (i & <- & Hi). apply In_range in Hi. apply H. unfold on_board; lia.
Qed.
Lemma zsum_ge f t : (forall i, on_board i -> 0 <= f i) -> on_board t -> f t <= zsum f.
Proof.
  intros H Ht.
  pose proof (zsum_point f (fun i => if i =? t then f i + - f i else f i) t (- f t) Ht).
  assert (zsum (fun i => if i =? t then f i + - f i else f i) = zsum f + - f t) as E.
  { apply H0. intros i Hi. destruct (Z.eqb_spec i t); subst; lia. }
  assert (0 <= zsum (fun i => if i =? t then f i + - f i else f i)).
  { apply zsum_nonneg. intros i Hi. specialize (H i Hi). destruct (i =? t); lia. }
  lia.
Qed.
Lemma zsum_zero f : (forall i, on_board i -> 0 <= f i) -> zsum f <= 0 -> forall i, on_board i -> f i = 0.
Proof. intros H Hs i Hi. pose proof (zsum_ge f i H Hi). specialize (H i Hi). lia. Qed.

(** ** Consequences of well-formedness *)
Lemma WF_len b : WF b -> length (pts b) = 24%nat.
Proof. now intros (H & _). Qed.
Lemma WF_nonneg b s : WF b -> (forall i, 0 <= men (view b) s i) /\ 0 <= bar (view b) s /\ 0 <= off (view b) s.
Proof.
  intros (Hl & H1 & H2 & H3 & H4 & _). split.
  - intros i. cbn. destruct ((0 <=? i) && (i <=? 23)); lia.
  - destruct s; cbn; lia.
Qed.
Lemma WF_total b s : WF b -> checkers (view b) s = 15.
Proof. intros (_ & _ & _ & _ & _ & H1 & H2). destruct s; auto. Qed.
Lemma WF_bounds b s : WF b ->
  (forall i, on_board i -> 0 <= men (view b) s i <= 15) /\ 0 <= bar (view b) s <= 15 /\ 0 <= off (view b) s <= 15.
Proof.
  intros H. pose proof (WF_nonneg b s H) as (Hm & Hb & Ho). pose proof (WF_total b s H) as Ht.
  unfold checkers in Ht. pose proof (zsum_nonneg (men (view b) s) (fun i _ => Hm i)).
  split; [|lia]. intros i Hi. pose proof (zsum_ge (men (view b) s) i (fun i _ => Hm i) Hi). specialize (Hm i). lia.
Qed.
Lemma WF_at b i : WF b -> on_board i -> -15 <= at_pt (pts b) i <= 15.
Proof.
  intros H Hi. pose proof (WF_bounds b P1 H) as (H1 & _). pose proof (WF_bounds b P2 H) as (H2 & _).
  specialize (H1 i Hi). specialize (H2 i Hi). rewrite men_view in * by auto. cbn [sign] in *. lia.
Qed.
Lemma WF_hits b : WF b -> 0 <= hit1 b <= 15 /\ 0 <= hit2 b <= 15 /\ 0 <= col1 b <= 15 /\ 0 <= col2 b <= 15.
Proof.
  intros H. pose proof (WF_bounds b P1 H) as (_ & H1 & H2). pose proof (WF_bounds b P2 H) as (_ & H3 & H4).
  cbn in *. lia.
Qed.

(** ** Positions up to pointwise equality *)
Lemma pos_eq_refl q : pos_eq q q.
Proof. repeat split. Qed.
Lemma pos_eq_sym a b : pos_eq a b -> pos_eq b a.
Proof. intros (H1 & H2 & H3). repeat split; intros; symmetry; auto. Qed.
Lemma pos_eq_trans a b c : pos_eq a b -> pos_eq b c -> pos_eq a c.
Proof. intros (H1 & H2 & H3) (G1 & G2 & G3). repeat split; intros; etransitivity; eauto. Qed.

Lemma effect_eq a b s m : pos_eq a b -> pos_eq (effect a s m) (effect b s m).
Proof.
  intros (H1 & H2 & H3).
  destruct m; cbn; (split; [|split]); cbn; unfold is_blot; cbn; intros; rewrite ?H1, ?H2, ?H3; auto.
Qed.
Lemma effects_eq a b s ms : pos_eq a b -> pos_eq (effects a s ms) (effects b s ms).
Proof.
  unfold effects. revert a b; induction ms as [|m ms IH]; intros a b H; cbn; auto.
  apply IH. now apply effect_eq.
Qed.
Lemma all_home_eq a b s : pos_eq a b -> all_home a s -> all_home b s.
Proof.
  intros (H1 & H2 & H3) (G1 & G2). split; [congruence|].
  intros i Hi Hm. apply G2; auto. rewrite H1; auto.
Qed.
Lemma blocked_eq a b s i : pos_eq a b -> blocked a s i -> blocked b s i.
Proof. intros (H1 & _). unfold blocked. now rewrite H1. Qed.
Lemma legal_eq a b s d m : pos_eq a b -> legal s d a m -> legal s d b m.
Proof.
  intros E H. pose proof E as (H1 & H2 & H3).
  assert (NB : forall i, ~ blocked a s i -> ~ blocked b s i).
  { intros i Hn Hb. apply Hn. eapply blocked_eq; [apply pos_eq_sym, E|auto]. }
  destruct H.
  - apply legal_enter; auto. rewrite <- H2; auto.
  - apply legal_move; auto; [rewrite <- H2|rewrite <- H1]; auto.
  - apply legal_off_exact; auto; [eapply all_home_eq; eauto|rewrite <- H1; auto].
  - apply legal_off_over; auto; [eapply all_home_eq; eauto|rewrite <- H1; auto|].
    intros j Hj Hm. rewrite <- H1 in Hm. eauto.
Qed.
Lemma loose_eq a b s d m : pos_eq a b -> loose s d a m -> loose s d b m.
Proof.
  intros E H. destruct H.
  - apply loose_legal. eapply legal_eq; eauto.
  - pose proof E as (H3 & _). apply loose_off; auto; [eapply all_home_eq; eauto|rewrite <- H3; auto].
Qed.
Lemma stuck_eq a b s dice : pos_eq a b -> stuck s dice a -> stuck s dice b.
Proof. intros E H d m Hd HL. apply (H d m Hd). eapply legal_eq; [apply pos_eq_sym, E|auto]. Qed.
Lemma clear_home_eq a b s : pos_eq a b -> clear_home a s -> clear_home b s.
Proof. intros (H1 & _) H i Hi Hp. rewrite <- H1. auto. Qed.
Lemma checkers_eq a b s : pos_eq a b -> checkers a s = checkers b s.
Proof.
  intros (H1 & H2 & H3). unfold checkers. rewrite H2, H3. f_equal. f_equal. apply zsum_ext. intros; auto.
Qed.
Lemma pips_eq a b s : pos_eq a b -> pips a s = pips b s.
Proof.
  intros (H1 & H2 & H3). unfold pips. rewrite H2. f_equal. apply zsum_ext. intros. now rewrite H1.
Qed.

Lemma entry_on_board s d : die d -> on_board (entry s d).
Proof. unfold die, on_board. destruct s; cbn; lia. Qed.

Lemma legal_playable s d q m : die d -> legal s d q m -> playable q s m.
Proof.
  intros Hd H. destruct H; cbn; auto.
  - split; [auto|]. split; [now apply entry_on_board|auto].
  - unfold die in Hd. repeat split; auto; try apply H0; try apply H2. destruct s; cbn; lia.
Qed.
Lemma loose_playable s d q m : die d -> loose s d q m -> playable q s m.
Proof. intros Hd H. destruct H; [eapply legal_playable; eauto|cbn; auto]. Qed.

Lemma opp_opp s : opp (opp s) = s. Proof. now destruct s. Qed.
Lemma opp_neq s : opp s <> s. Proof. now destruct s. Qed.

(** The rule-book effect preserves the number of checkers. *)
Lemma effect_checkers q s m x :
  (forall i, 0 <= men q (opp s) i) -> playable q s m -> checkers (effect q s m) x = checkers q x.
Proof.
  intros Hn Hp. unfold checkers.
  assert (HL : forall q t, on_board t -> men q (opp s) t <= 1 ->
     (forall i, 0 <= men q (opp s) i) ->
     zsum (men (land q s t) x) + bar (land q s t) x =
     zsum (men q x) + bar q x + (if side_eqb x s then 1 else 0)).
  { clear. intros q t Ht Hb Hn. cbn. destruct (side_eqb x s) eqn:E.
    - rewrite (zsum_point (men q x) _ t 1 Ht); [lia|]. intros i Hi. reflexivity.
    - assert (x = opp s) as -> by (destruct x, s; cbn in *; congruence).
      unfold is_blot. specialize (Hn t).
      destruct (Z.eqb_spec (men q (opp s) t) 1).
      + rewrite (zsum_point (men q (opp s)) _ t (-1) Ht); [lia|]. intros i Hi.
        destruct (Z.eqb_spec i t); subst; lia.
      + rewrite (zsum_ext _ (men q (opp s))); [lia|]. intros i Hi. destruct (i =? t); auto. }
  destruct m as [t|f t|f]; cbn [effect playable] in *.
  - destruct Hp as (Hb & Ht & Hnb). unfold blocked in Hnb.
    assert (HH := HL (leave_bar q s) t Ht). cbn in HH |- *.
    rewrite HH; [|lia|auto]. destruct (side_eqb x s); lia.
  - destruct Hp as (Hf & Ht & Hne & Hm & Hnb). unfold blocked in Hnb.
    assert (Ho : forall i, men (leave q s f) (opp s) i = men q (opp s) i) by (intros; destruct s; reflexivity).
    assert (HH := HL (leave q s f) t Ht). rewrite Ho in HH.
    assert (E : zsum (men (leave q s f) x) = zsum (men q x) - (if side_eqb x s then 1 else 0)).
    { cbn. destruct (side_eqb x s) eqn:E; cbn.
      - rewrite (zsum_point (men q x) _ f (-1) Hf); [lia|]. intros; reflexivity.
      - rewrite (zsum_ext _ (men q x)); [lia|auto]. }
    change (off (land (leave q s f) s t) x) with (off q x).
    change (bar (leave q s f) x) with (bar q x) in HH.
    rewrite HH; [destruct (side_eqb x s); lia|lia|intros; rewrite Ho; auto].
  - destruct Hp as (Hf & Hm). cbn. destruct (side_eqb x s) eqn:E; cbn.
    + rewrite (zsum_point (men q x) _ f (-1) Hf); [lia|]. intros; reflexivity.
    + rewrite (zsum_ext _ (men q x)); [lia|auto].
Qed.

(** ** The refinement lemma *)
Ltac kill_ifs :=
  repeat match goal with
  | |- context [if ?b then _ else _] => destruct b eqn:?
  | H : context [if ?b then _ else _] |- _ => destruct b eqn:?
  end.

Lemma mv_of_act_of m : (forall f t, m = Move f t -> on_board f /\ on_board t) ->
  (forall t, m = Enter t -> on_board t) -> mv_of (act_of m) = m.
Proof.
  unfold on_board. intros H1 H2. destruct m as [t|f t|f]; cbn; auto.
  - specialize (H2 t eq_refl). destruct (Z.eqb_spec t (-1)); [lia|reflexivity].
  - specialize (H1 f t eq_refl). destruct (Z.eqb_spec t (-1)), (Z.eqb_spec f (-1)); auto; lia.
Qed.
Lemma mv_of_playable q s m : playable q s m -> mv_of (act_of m) = m.
Proof.
  intros H. apply mv_of_act_of; intros; subst; cbn in H; tauto.
Qed.

Lemma view_eq_intro b q :
  (forall s i, on_board i -> Z.max 0 (sign s * at_pt (pts b) i) = men q s i) ->
  (forall s i, ~ on_board i -> men q s i = 0) ->
  bar q P1 = hit1 b -> bar q P2 = hit2 b -> off q P1 = col1 b -> off q P2 = col2 b ->
  pos_eq (view b) q.
Proof.
  intros Hm Hm0 H1 H2 H3 H4. split; [|split].
  - intros s i. cbn. destruct (Z.leb_spec 0 i), (Z.leb_spec i 23); cbn [andb];
      try (symmetry; apply Hm0; unfold on_board; lia). apply Hm. unfold on_board; lia.
  - intros []; cbn; auto.
  - intros []; cbn; auto.
Qed.

Lemma next_action_refines pr b s m :
  WF b -> playable (view b) s m ->
  exists b', next_action pr (sign s) b (act_of m) = Ok b'
             /\ length (pts b') = 24%nat
             /\ pos_eq (view b') (effect (view b) s m).
Proof.
  intros HW Hp. pose proof (WF_len b HW) as Hl. pose proof (WF_hits b HW) as Hh.
  assert (Hat := fun i => WF_at b i HW).
  assert (Hlen : forall i, on_board i -> 0 <= i < Z.of_nat (length (pts b))).
  { intros i Hi. unfold on_board in Hi. rewrite Hl. lia. }
  destruct m as [t|f t|f]; cbn [playable act_of next_action] in *.
  - (* enter *)
    destruct Hp as (Hbar & Ht & Hnb). pose proof (Hat t Ht) as Hx.
    unfold blocked in Hnb. rewrite men_view in Hnb by auto.
    assert (t =? -1 = false) as -> by (unfold on_board in Ht; lia).
    cbn [Z.eqb Pos.eqb]. rewrite idx_at by auto. cbn [bind].
    rewrite i8_ok by (destruct s; cbn; lia). cbn [bind].
    destruct (Z.eqb_spec (at_pt (pts b) t) (- sign s)) as [Eq|Neq].
    + rewrite upd_ok by auto. cbn [bind].
      destruct s; cbn [sign opp Z.eqb Pos.eqb bar view] in *.
      * rewrite u8_ok by lia. cbn [bind]. rewrite u8_ok by lia. cbn [bind].
        eexists. split; [reflexivity|]. split; [cbn; now rewrite set_nth_length|].
        apply view_eq_intro; cbn [pts hit1 hit2 col1 col2].
        -- intros x i Hi. rewrite at_pt_set by (auto; unfold on_board in Hi; lia).
           cbn [effect land leave_bar men]. unfold is_blot. cbn [men leave_bar opp].
           rewrite !men_view by auto. destruct (Z.eqb_spec i t); subst; destruct x; cbn [side_eqb sign] in *; kill_ifs; lia.
        -- intros x i Hi. cbn [effect land leave_bar men].
           destruct (Z.eqb_spec i t); [subst; contradiction|]. now apply men_view_off.
        -- reflexivity.
        -- cbn [effect land leave_bar bar side_eqb]. unfold is_blot. cbn [opp men leave_bar]. rewrite men_view by auto. cbn [sign] in *. kill_ifs; cbn [view bar]; lia.
        -- reflexivity.
        -- reflexivity.
      * rewrite u8_ok by lia. cbn [bind]. rewrite u8_ok by lia. cbn [bind].
        eexists. split; [reflexivity|]. split; [cbn; now rewrite set_nth_length|].
        apply view_eq_intro; cbn [pts hit1 hit2 col1 col2].
        -- intros x i Hi. rewrite at_pt_set by (auto; unfold on_board in Hi; lia).
           cbn [effect land leave_bar men]. unfold is_blot. cbn [men leave_bar opp].
           rewrite !men_view by auto. destruct (Z.eqb_spec i t); subst; destruct x; cbn [side_eqb sign] in *; kill_ifs; lia.
        -- intros x i Hi. cbn [effect land leave_bar men].
           destruct (Z.eqb_spec i t); [subst; contradiction|]. now apply men_view_off.
        -- cbn [effect land leave_bar bar side_eqb]. unfold is_blot. cbn [opp men leave_bar]. rewrite men_view by auto. cbn [sign] in *. kill_ifs; cbn [view bar]; lia.
        -- reflexivity.
        -- reflexivity.
        -- reflexivity.
    + destruct s; cbn [sign opp Z.eqb Pos.eqb bar view] in *.
      * rewrite i8_ok by lia. cbn [bind]. rewrite upd_ok by auto. cbn [bind]. rewrite u8_ok by lia. cbn [bind].
        eexists. split; [reflexivity|]. split; [cbn; now rewrite set_nth_length|].
        apply view_eq_intro; cbn [pts hit1 hit2 col1 col2].
        -- intros x i Hi. rewrite at_pt_set by (auto; unfold on_board in Hi; lia).
           cbn [effect land leave_bar men]. unfold is_blot. cbn [men leave_bar opp].
           rewrite !men_view by auto. destruct (Z.eqb_spec i t); subst; destruct x; cbn [side_eqb sign] in *; kill_ifs; lia.
        -- intros x i Hi. cbn [effect land leave_bar men].
           destruct (Z.eqb_spec i t); [subst; contradiction|]. now apply men_view_off.
        -- reflexivity.
        -- cbn [effect land leave_bar bar side_eqb]. unfold is_blot. cbn [opp men leave_bar]. rewrite men_view by auto. cbn [sign] in *. kill_ifs; cbn [view bar]; lia.
        -- reflexivity.
        -- reflexivity.
      * rewrite i8_ok by lia. cbn [bind]. rewrite upd_ok by auto. cbn [bind]. rewrite u8_ok by lia. cbn [bind].
        eexists. split; [reflexivity|]. split; [cbn; now rewrite set_nth_length|].
        apply view_eq_intro; cbn [pts hit1 hit2 col1 col2].
        -- intros x i Hi. rewrite at_pt_set by (auto; unfold on_board in Hi; lia).
           cbn [effect land leave_bar men]. unfold is_blot. cbn [men leave_bar opp].
           rewrite !men_view by auto. destruct (Z.eqb_spec i t); subst; destruct x; cbn [side_eqb sign] in *; kill_ifs; lia.
        -- intros x i Hi. cbn [effect land leave_bar men].
           destruct (Z.eqb_spec i t); [subst; contradiction|]. now apply men_view_off.
        -- cbn [effect land leave_bar bar side_eqb]. unfold is_blot. cbn [opp men leave_bar]. rewrite men_view by auto. cbn [sign] in *. kill_ifs; cbn [view bar]; lia.
        -- reflexivity.
        -- reflexivity.
        -- reflexivity.
  - (* move *)
    destruct Hp as (Hf & Ht & Hne & Hm & Hnb). pose proof (Hat t Ht) as Hx. pose proof (Hat f Hf) as Hy.
    unfold blocked in Hnb. rewrite men_view in Hnb, Hm by auto.
    assert (t =? -1 = false) as -> by (unfold on_board in Ht; lia).
    assert (f =? -1 = false) as -> by (unfold on_board in Hf; lia).
    rewrite idx_at by auto. cbn [bind].
    rewrite i8_ok by (destruct s; cbn; lia). cbn [bind].
    assert (Hf' : 0 <= f) by (unfold on_board in Hf; lia).
    assert (Heqft : f =? t = false) by lia.
    destruct (Z.eqb_spec (at_pt (pts b) t) (- sign s)) as [Eq|Neq].
    + rewrite upd_ok by auto. cbn [bind].
      rewrite idx_at by (rewrite set_nth_length; auto). cbn [bind].
      rewrite at_pt_set by auto. rewrite Heqft.
      rewrite i8_ok by (destruct s; cbn; lia). cbn [bind].
      rewrite upd_ok by (rewrite set_nth_length; auto). cbn [bind].
      destruct s; cbn [sign opp Z.eqb Pos.eqb bar view] in *.
      * rewrite u8_ok by lia. cbn [bind].
        eexists. split; [reflexivity|]. split; [cbn; now rewrite !set_nth_length|].
        apply view_eq_intro; cbn [pts hit1 hit2 col1 col2].
        -- intros x i Hi. rewrite at_pt_set by (rewrite ?set_nth_length; auto; unfold on_board in Hi; lia).
           rewrite at_pt_set by (auto; unfold on_board in Hi; lia).
           cbn [effect land leave men]. unfold is_blot. cbn [men leave opp].
           rewrite !men_view by auto. destruct (Z.eqb_spec i t), (Z.eqb_spec i f); subst; destruct x; cbn [side_eqb sign andb] in *; kill_ifs; lia.
        -- intros x i Hi. cbn [effect land leave men].
           destruct (Z.eqb_spec i t); [subst; contradiction|].
           destruct (Z.eqb_spec i f); [subst; contradiction|]. rewrite andb_false_r. now apply men_view_off.
        -- reflexivity.
        -- cbn [effect land leave bar side_eqb]. unfold is_blot. cbn [opp men leave]. cbn [side_eqb andb]. rewrite men_view by auto. cbn [sign] in *. kill_ifs; cbn [view bar]; lia.
        -- reflexivity.
        -- reflexivity.
      * rewrite u8_ok by lia. cbn [bind].
        eexists. split; [reflexivity|]. split; [cbn; now rewrite !set_nth_length|].
        apply view_eq_intro; cbn [pts hit1 hit2 col1 col2].
        -- intros x i Hi. rewrite at_pt_set by (rewrite ?set_nth_length; auto; unfold on_board in Hi; lia).
           rewrite at_pt_set by (auto; unfold on_board in Hi; lia).
           cbn [effect land leave men]. unfold is_blot. cbn [men leave opp].
           rewrite !men_view by auto. destruct (Z.eqb_spec i t), (Z.eqb_spec i f); subst; destruct x; cbn [side_eqb sign andb] in *; kill_ifs; lia.
        -- intros x i Hi. cbn [effect land leave men].
           destruct (Z.eqb_spec i t); [subst; contradiction|].
           destruct (Z.eqb_spec i f); [subst; contradiction|]. rewrite andb_false_r. now apply men_view_off.
        -- cbn [effect land leave bar side_eqb]. unfold is_blot. cbn [opp men leave]. cbn [side_eqb andb]. rewrite men_view by auto. cbn [sign] in *. kill_ifs; cbn [view bar]; lia.
        -- reflexivity.
        -- reflexivity.
        -- reflexivity.
    + rewrite i8_ok by (destruct s; cbn; lia). cbn [bind]. rewrite upd_ok by auto. cbn [bind].
      rewrite idx_at by (rewrite set_nth_length; auto). cbn [bind].
      rewrite at_pt_set by auto. rewrite Heqft.
      rewrite i8_ok by (destruct s; cbn; lia). cbn [bind].
      rewrite upd_ok by (rewrite set_nth_length; auto). cbn [bind].
      eexists. split; [reflexivity|]. split; [cbn; now rewrite !set_nth_length|].
      apply view_eq_intro; cbn [pts hit1 hit2 col1 col2].
      * intros x i Hi. rewrite at_pt_set by (rewrite ?set_nth_length; auto; unfold on_board in Hi; lia).
        rewrite at_pt_set by (auto; unfold on_board in Hi; lia).
        cbn [effect land leave men]. unfold is_blot. cbn [men leave opp].
        rewrite !men_view by auto. destruct (Z.eqb_spec i t), (Z.eqb_spec i f); subst; destruct x, s; cbn [side_eqb sign opp andb] in *; kill_ifs; lia.
      * intros x i Hi. cbn [effect land leave men].
        destruct (Z.eqb_spec i t); [subst; contradiction|].
        destruct (Z.eqb_spec i f); [subst; contradiction|]. rewrite andb_false_r. now apply men_view_off.
      * cbn [effect land leave bar side_eqb]. unfold is_blot. destruct s; cbn [opp men leave side_eqb andb]; [reflexivity|]. rewrite men_view by auto. cbn [sign opp] in *. kill_ifs; cbn [view bar]; lia.
      * cbn [effect land leave bar side_eqb]. unfold is_blot. destruct s; cbn [opp men leave side_eqb andb]; [|reflexivity]. rewrite men_view by auto. cbn [sign opp] in *. kill_ifs; cbn [view bar]; lia.
      * reflexivity.
      * reflexivity.
  - (* bear off *)
    destruct Hp as (Hf & Hm). pose proof (Hat f Hf) as Hy. rewrite men_view in Hm by auto.
    cbn [Z.eqb Pos.eqb]. rewrite idx_at by auto. cbn [bind].
    rewrite i8_ok by (destruct s; cbn; lia). cbn [bind]. rewrite upd_ok by auto. cbn [bind].
    destruct s; cbn [sign opp Z.eqb Pos.eqb bar view] in *; (rewrite u8_ok by lia); cbn [bind];
      (eexists; split; [reflexivity|]; split; [cbn; now rewrite set_nth_length|]);
      apply view_eq_intro; cbn [pts hit1 hit2 col1 col2]; try reflexivity.
    + intros x i Hi. rewrite at_pt_set by (auto; unfold on_board in Hi; lia).
      cbn [effect bear leave men]. rewrite !men_view by auto.
      destruct (Z.eqb_spec i f); subst; destruct x; cbn [side_eqb sign andb] in *; lia.
    + intros x i Hi. cbn [effect bear leave men].
      destruct (Z.eqb_spec i f); [subst; contradiction|]. rewrite andb_false_r. now apply men_view_off.
    + intros x i Hi. rewrite at_pt_set by (auto; unfold on_board in Hi; lia).
      cbn [effect bear leave men]. rewrite !men_view by auto.
      destruct (Z.eqb_spec i f); subst; destruct x; cbn [side_eqb sign andb] in *; lia.
    + intros x i Hi. cbn [effect bear leave men].
      destruct (Z.eqb_spec i f); [subst; contradiction|]. rewrite andb_false_r. now apply men_view_off.
Qed.

Lemma effect_nonneg q s m :
  (forall x i, 0 <= men q x i) -> (forall x, 0 <= bar q x) -> (forall x, 0 <= off q x) -> playable q s m ->
  (forall x, 0 <= bar (effect q s m) x) /\ (forall x, 0 <= off (effect q s m) x).
Proof.
  intros H1 H2 H3 Hp. destruct m as [t|f t|f]; cbn in *.
  - split; intros x; [|auto]. pose proof (H2 x). destruct Hp as (Hb & _).
    destruct (side_eqb x s) eqn:E; [|kill_ifs; lia]. assert (x = s) as -> by (destruct x, s; cbn in *; congruence). lia.
  - split; intros x; [|auto]. specialize (H2 x). kill_ifs; lia.
  - split; intros x; auto. specialize (H3 x). kill_ifs; lia.
Qed.

(** Well-formedness is preserved. *)
Lemma next_action_WF pr b s m :
  WF b -> playable (view b) s m ->
  exists b', next_action pr (sign s) b (act_of m) = Ok b' /\ WF b'
             /\ pos_eq (view b') (effect (view b) s m).
Proof.
  intros HW Hp. destruct (next_action_refines pr b s m HW Hp) as (b' & E & Hl & Hv).
  exists b'. split; [auto|]. split; [|auto].
  assert (Hc : forall x, checkers (view b') x = 15).
  { intros x. rewrite (checkers_eq _ _ x Hv), effect_checkers; auto.
    - now apply WF_total.
    - intros i. now apply (WF_nonneg b (opp s) HW). }
  assert (Hn := effect_nonneg (view b) s m
     (fun x => proj1 (WF_nonneg b x HW)) (fun x => proj1 (proj2 (WF_nonneg b x HW)))
     (fun x => proj2 (proj2 (WF_nonneg b x HW))) Hp).
  destruct Hv as (_ & Hb & Ho). destruct Hn as (Hn1 & Hn2).
  split; [auto|].
  pose proof (Hb P1) as B1. pose proof (Hb P2) as B2. pose proof (Ho P1) as O1. pose proof (Ho P2) as O2.
  cbn [view bar off] in B1, B2, O1, O2.
  rewrite B1, B2, O1, O2. repeat split; auto.
Qed.
