(** * SelectProof: the descents of the two searches, re-exported by Prop_Log.v. *)
From Verif Require Import Base BaseFacts F32 F32Facts NanFacts GameModel McModel McSpec AlphaModel AlphaSpec SelectSpec LogSpec
  McProof McProof2 McApi AlphaProof LogProof.
From Coq Require Import Arith.
Require Import ZifyBool ZifyNat.

Lemma best_by_eq G (f : node G -> f32) (sc : node G -> res f32) l : (forall m, In m l -> sc m = Ok (f m)) -> best_by sc l = best_by (fun m => Ok (f m)) l.
Proof.
  intros H. unfold best_by. f_equal. induction l as [|m l IH]; [reflexivity|]. cbn [mmap]. rewrite (H m (or_introl eq_refl)). cbn [bind].
  rewrite IH; [reflexivity|]. intros x Hx. apply H. right. exact Hx.
Qed.
Lemma last_best_of G (score : node G -> node G -> f32) st p cs ch l1 m l2 : Forall2 (fun c x => nth_error st c = Some x) cs ch ->
  (forall c x, nth_error st c = Some x -> In c cs -> n_idx x = c) -> ch = l1 ++ m :: l2 ->
  (forall x, In x l1 -> SFleb (score p x) (score p m) = true) -> (forall x, In x l2 -> SFltb (score p x) (score p m) = true) ->
  last_best score st p cs (n_idx m).
Proof.
  intros HF Hidx -> H1 H2. apply Forall2_app_inv_r in HF. destruct HF as (c1 & c2 & HF1 & HF2 & ->). inversion HF2 as [|c x c3 l3 Hc HF3]; subst.
  rewrite (Hidx c m Hc) by (apply in_or_app; right; left; reflexivity). exists c1, c3, m. split; [reflexivity|]. split; [exact Hc|]. split.
  - intros d Hd. destruct (forall2_in_l _ _ _ _ _ _ HF1 Hd) as (x & Hx & Ex). exists x. auto.
  - intros d Hd. destruct (forall2_in_l _ _ _ _ _ _ HF3 Hd) as (x & Hx & Ex). exists x. auto.
Qed.

Section P.
  Variable G : Game.
  Variable ln : f32 -> f32.
  Implicit Types (st : store G) (n : node G).

  Lemma select_fuel_descent s0 st c : tree s0 st -> numbers (uct ln c) st -> forall fuel i, (i < length st)%nat -> (length st - i < fuel)%nat ->
    exists j, select_leaf_fuel ln fuel i st c = Ok j /\ descent (uct ln c) open st i j.
  Proof.
    intros HT HN. induction fuel as [|fuel IH]; intros i Hi Hf; [lia|]. cbn [select_leaf_fuel].
    destruct (nth_error_ex _ st i Hi) as [n E]. unfold get_node. rewrite E. cbn [bind].
    assert (Hst : open n -> exists j, Ok (n_idx n) = Ok j /\ descent (uct ln c) open st i j).
    { intros Ho. exists i. rewrite (tree_idx _ _ _ HT _ _ E). split; [reflexivity|]. eapply desc_stop; eassumption. }
    destruct (n_children n) as [|c0 cs] eqn:Ec; [apply Hst; left; exact Ec|]. unfold is_fully_expanded.
    destruct (n_exp n) as [|a ex] eqn:Ee; cbn [orb negb]; [|apply Hst; right; congruence].
    destruct (children_of_spec G s0 st i n HT E) as (ch & Ech & HF & Hch).
    unfold select_ucb. unfold get_node. rewrite E. cbn [bind]. rewrite Ech. cbn [bind].
    rewrite (best_by_eq G (uct ln c n)).
    2: { intros m Hm. destruct (Hch m Hm) as (_ & _ & Hp). unfold ucb, get_node. rewrite Hp, E. reflexivity. }
    destruct (best_by_max G (uct ln c n) ch) as (l1 & m & l2 & El & Eb & H1 & H2).
    { intros ->. inversion HF. congruence. }
    { intros m Hm. destruct (Hch m Hm) as (Hin & Em & _). eapply HN; eassumption. }
    rewrite Eb. cbn [bind].
    assert (Hb : last_best (uct ln c) st n (n_children n) (n_idx m)).
    { eapply last_best_of; try eassumption. intros d x Ex _. eapply tree_idx; eassumption. }
    destruct (Hch m) as (Hin & Em & Hpm); [rewrite El; apply in_or_app; right; left; reflexivity|].
    destruct (tree_child_gt _ _ _ _ _ _ HT E Hin) as [Hlt _]. pose proof (nth_error_lt _ _ _ _ Em).
    destruct (IH (n_idx m)) as (j & Ej & Hj); [lia|lia|]. exists j. split; [exact Ej|].
    eapply desc_down; [exact E| |exact Hb|exact Hj]. intros [Ho|Ho]; congruence.
  Qed.
End P.
Section P2.
  Variable G : Game.
  Implicit Types (st : store G) (n : node G).

  Lemma alpha_fuel_descent roots st c : forest roots st -> numbers (puct c) st -> forall fuel i, (i < length st)%nat -> (length st - i < fuel)%nat ->
    exists j, alpha_select_fuel fuel i st c = Ok j /\ descent (puct c) childless st i j.
  Proof.
    intros HT HN. induction fuel as [|fuel IH]; intros i Hi Hf; [lia|]. cbn [alpha_select_fuel].
    destruct (nth_error_ex _ st i Hi) as [n E]. unfold get_node. rewrite E. cbn [bind].
    destruct (n_children n) as [|c0 cs] eqn:Ec.
    { exists i. rewrite (fo_idx _ _ _ HT _ _ E). split; [reflexivity|]. eapply desc_stop; eassumption. }
    destruct (forest_children G roots st i n HT E) as (ch & Ech & HF & Hch).
    unfold select_alpha. unfold get_node. rewrite E. cbn [bind]. rewrite Ech. cbn [bind].
    rewrite (best_by_eq G (puct c n)).
    2: { intros m Hm. destruct (Hch m Hm) as (_ & _ & Hp). unfold alpha_ucb, get_node. rewrite Hp, E. reflexivity. }
    destruct (best_by_max G (puct c n) ch) as (l1 & m & l2 & El & Eb & H1 & H2).
    { intros ->. inversion HF. congruence. }
    { intros m Hm. destruct (Hch m Hm) as (Hin & Em & _). eapply HN; eassumption. }
    rewrite Eb. cbn [bind].
    assert (Hb : last_best (puct c) st n (n_children n) (n_idx m)).
    { eapply last_best_of; try eassumption. intros d x Ex _. eapply fo_idx; eassumption. }
    destruct (Hch m) as (Hin & Em & Hpm); [rewrite El; apply in_or_app; right; left; reflexivity|].
    destruct (forest_child_gt _ _ _ _ _ _ HT E Hin) as [Hlt _]. pose proof (nth_error_lt _ _ _ _ Em).
    destruct (IH (n_idx m)) as (j & Ej & Hj); [lia|lia|]. exists j. split; [exact Ej|].
    eapply desc_down; [exact E| |exact Hb|exact Hj]. unfold childless. congruence.
  Qed.
End P2.

Theorem C59_plain_lemma : forall (G : Game) ln s (st : store G) c, tree s st -> numbers (uct ln c) st ->
  exists j, select_leaf_node ln 0 st c = Ok j /\ descent (uct ln c) open st 0 j.
Proof.
  intros G ln s st c HT HN. destruct (tree_root _ _ _ HT) as (n & E & _). apply nth_error_lt in E.
  apply (select_fuel_descent G ln s st c HT HN); lia.
Qed.
Theorem C59_network_lemma : forall (G : Game) roots (st : store G) c g, forest roots st -> (g < length roots)%nat -> numbers (puct c) st ->
  exists j, alpha_select_leaf_node g st c = Ok j /\ descent (puct c) childless st g j.
Proof.
  intros G roots st c g HT Hg HN. destruct (forest_root_lt _ _ _ _ HT Hg) as (n & s & E & _). apply nth_error_lt in E.
  apply (alpha_fuel_descent G roots st c HT HN); lia.
Qed.

Lemma nonneg_leb x : SFleb f0 x = true -> nonneg x.
Proof. destruct x as [s|[]| |[] m e]; cbn; congruence || auto. Qed.
Lemma finite_number x : finite x -> x <> S754_nan.
Proof. intros H ->. exact H. Qed.
Theorem C59_numbers_lemma : forall (G : Game) ln s pl cfg r k st0 st r', (pl = -1 \/ pl = 1) -> (0 < sim_limit cfg)%nat ->
  mcts_init (G := G) s = Ok st0 -> mcts_loop ln k pl cfg (st0, r) = Ok (st, r') -> Z.of_nat k <= 2 ^ 24 ->
  (forall v, 1 <= v <= Z.of_nat k -> SFleb f0 (fmul (cfg_c cfg) (ln (f32_of_Z v))) = true) ->
  numbers (uct ln (cfg_c cfg)) st.
Proof.
  intros G ln s pl cfg r k st0 st r' Hpl Hlim Hi H Hk Hln.
  destruct (loop_done G ln pl cfg Hpl Hlim s k st0 r st r' [] (init_done G pl s st0 Hi) H) as (log0 & _ & [HT _ _ _ _ _]).
  destruct (C62_values_lemma G ln s pl cfg r k st0 st r' Hpl Hlim Hi H Hk) as (log & HL & _ & Hin & _ & Hval).
  assert (Hpos : forall j n sub, nth_error st j = Some n -> (0 < j)%nat -> beneath st j log sub -> (1 <= length sub <= k)%nat).
  { intros j n sub E Hj Hb. split; [|rewrite <- HL; eapply beneath_length; exact Hb].
    assert (Hjl : In j log) by (apply Hin; apply nth_error_lt in E; lia). clear -Hb Hjl E.
    induction Hb as [|i log sub Hp Hb IH|i log sub Hp Hb IH]; [destruct Hjl|cbn; lia|]. destruct Hjl as [->|Hjl]; [|apply IH; exact Hjl].
    destruct Hp. eapply path_here. exact E. }
  intros i n c m En Hc Em. destruct (tree_child_gt _ _ _ _ _ _ HT En Hc) as (Hlt & cn & Ecn & Hpar & _). rewrite Em in Ecn. injection Ecn as <-.
  destruct (Hval c m Em) as (sub & Hb & Hv & Hw). destruct (Hpos c m sub Em ltac:(lia) Hb) as [Hs1 Hs2].
  assert (Hpv : exists v, 1 <= v <= Z.of_nat k /\ n_visits n = f32_of_Z v).
  { destruct (Hval i n En) as (sub' & Hb' & Hv' & _). exists (Z.of_nat (length sub')). split; [|exact Hv'].
    pose proof (beneath_length G st i _ _ Hb'). split; [|lia].
    assert (Hcl : In c log) by (apply Hin; apply nth_error_lt in Em; lia).
    assert (Hci : on_path st c i) by (eapply path_up; [exact Em|exact Hpar|eapply path_here; exact En]).
    clear -Hb' Hcl Hci. enough (1 <= length sub')%nat by lia.
    induction Hb' as [|x log sub Hp Hb IH|x log sub Hp Hb IH]; [destruct Hcl|cbn; lia|]. destruct Hcl as [->|Hcl]; [contradiction|apply IH; exact Hcl]. }
  destruct Hpv as (v & Hv1 & Env).
  assert (Hz : Z.abs (zsum (map (score_at pl st) sub)) <= Z.of_nat (length sub)).
  { clear. induction sub as [|x sub IH]; [cbn; lia|]. cbn [map zsum fold_right length]. fold (zsum (map (score_at pl st) sub)).
    assert (-1 <= score_at pl st x <= 1); [|lia]. unfold score_at. destruct (nth_error st x); [apply score_range|lia]. }
  unfold uct. rewrite Hv, Hw, Env.
  destruct (f32_of_Z_canon (Z.of_nat (length sub)) ltac:(lia) ltac:(lia)) as (mm & ee & Ef & _).
  pose proof (quotient_finite (zsum (map (score_at pl st) sub)) (Z.of_nat (length sub)) ltac:(lia) ltac:(lia)) as Hq.
  apply fadd_number.
  - apply finite_number. exact Hq.
  - apply fsqrt_nonneg. apply fdiv_nonneg; [apply nonneg_leb, Hln; exact Hv1| | |]; rewrite Ef; [cbn; lia|exact Logic.I|discriminate].
  - intros E. rewrite E in Hq. exact Hq.
Qed.
