(** * McProof2: iterations of the search. *)
From Verif Require Import Base BaseFacts F32 F32Facts GameModel McModel McSpec McProof.
From Coq Require Import Arith.
Require Import ZifyBool ZifyNat.

Lemma choose_spec (A : Type) (l : list A) r x l' : l = x :: l' -> exists m r', choose l r = (Some m, r') /\ In m l.
Proof.
  intros ->. unfold choose. pose proof (gen_range_spec 0 (Z.of_nat (length (x :: l')) - 1) r ltac:(cbn [length]; lia)) as H.
  destruct (gen_range 0 (Z.of_nat (length (x :: l')) - 1) r) as [k r']. cbn [fst] in H.
  destruct (nth_error_ex _ (x :: l') (Z.to_nat k)) as [m Em]; [cbn [length] in *; lia|].
  exists m, r'. rewrite Em. split; [reflexivity|]. eapply nth_error_In. exact Em.
Qed.

Section P2.
  Variable G : Game.
  Variable ln : f32 -> f32.
  Implicit Types (st : store G) (n : node G).

  Lemma best_by_nil score : best_by (G := G) score [] = Ok None.
  Proof. reflexivity. Qed.
  Lemma best_by_ok score (l : list (node G)) : (forall n, In n l -> exists v, score n = Ok v) -> l <> [] ->
    exists m, best_by score l = Ok (Some m) /\ In m l.
  Proof.
    intros H Hne. unfold best_by.
    destruct (mmap_all_ok _ _ (fun n => v <- score n ;; Ok (n, v)) l) as [sc Esc].
    { intros n Hn. destruct (H n Hn) as [v Ev]. rewrite Ev. cbn. eauto. }
    rewrite Esc. cbn [bind]. pose proof (mmap_ok_in _ _ _ _ _ Esc) as HF.
    destruct (max_by (fun a b : node G * f32 => fcmp (snd a) (snd b)) sc) as [[m v]|] eqn:Em.
    - pose proof (max_by_in _ _ _ _ Em) as Hin. exists m. split; [reflexivity|].
      destruct (forall2_in_r _ _ _ _ _ _ HF Hin) as (x & Hx & Ex). cbn in Ex.
      destruct (score x); cbn in Ex; [|discriminate]. injection Ex as Ex _. rewrite <- Ex. exact Hx.
    - destruct sc; [|discriminate]. inversion HF; subst. congruence.
  Qed.

  Lemma children_of_spec s0 st i n : tree s0 st -> nth_error st i = Some n ->
    exists ch, children_of st n = Ok ch
      /\ Forall2 (fun c m => nth_error st c = Some m) (n_children n) ch
      /\ forall m, In m ch -> In (n_idx m) (n_children n) /\ nth_error st (n_idx m) = Some m /\ n_parent m = Some i.
  Proof.
    intros HT E. unfold children_of.
    destruct (mmap_all_ok _ _ (get_node st) (n_children n)) as [ch Ech].
    { intros c Hc. destruct (tree_child_gt _ _ _ _ _ _ HT E Hc) as (_ & cn & Ec & _). unfold get_node. rewrite Ec. eauto. }
    exists ch. split; [exact Ech|]. pose proof (mmap_ok_in _ _ _ _ _ Ech) as HF.
    assert (HF' : Forall2 (fun c m => nth_error st c = Some m) (n_children n) ch).
    { clear -HF. induction HF as [|c m l l' H HF IH]; constructor; [|exact IH].
      unfold get_node in H. destruct (nth_error st c); [injection H as <-; reflexivity|discriminate]. }
    split; [exact HF'|].
    intros m Hm. destruct (forall2_in_r _ _ _ _ _ _ HF' Hm) as (c & Hc & Ec).
    destruct (tree_child_gt _ _ _ _ _ _ HT E Hc) as (_ & cn & Ec' & Hp & Hx). rewrite Ec in Ec'. injection Ec' as <-.
    rewrite Hx. auto.
  Qed.

  Lemma select_ucb_spec s0 st i n c : tree s0 st -> nth_error st i = Some n -> n_children n <> [] ->
    exists m, select_ucb ln i st c = Ok m /\ In (n_idx m) (n_children n) /\ nth_error st (n_idx m) = Some m.
  Proof.
    intros HT E Hne. destruct (children_of_spec _ _ _ _ HT E) as (ch & Ech & HF & Hch).
    unfold select_ucb. unfold get_node at 1. rewrite E. cbn [bind]. rewrite Ech. cbn [bind].
    destruct (best_by_ok (fun m => ucb ln m st c) ch) as (m & Eb & Hm).
    - intros m Hm. destruct (Hch m Hm) as (_ & _ & Hp). unfold ucb, get_node. rewrite Hp, E. cbn. eauto.
    - intros ->. inversion HF; congruence.
    - rewrite Eb. cbn [bind]. exists m. split; [reflexivity|]. destruct (Hch m Hm) as (H1 & H2 & _). auto.
  Qed.

  Lemma select_leaf_fuel_spec s0 st c : tree s0 st -> forall fuel i, (i < length st)%nat -> (length st - i < fuel)%nat ->
    exists j n, select_leaf_fuel ln fuel i st c = Ok j /\ nth_error st j = Some n /\ (n_children n = [] \/ n_exp n <> []).
  Proof.
    intros HT. induction fuel as [|fuel IH]; intros i Hi Hf; [lia|]. cbn [select_leaf_fuel].
    destruct (nth_error_ex _ st i Hi) as [n E]. unfold get_node. rewrite E. cbn [bind].
    destruct (n_children n) as [|c0 cs] eqn:Ec.
    - cbn [orb]. exists (n_idx n), n. rewrite (tree_idx _ _ _ HT _ _ E). auto.
    - unfold is_fully_expanded. destruct (n_exp n) as [|a ex] eqn:Ee; cbn [orb negb].
      + destruct (select_ucb_spec s0 st i n c HT E ltac:(congruence)) as (m & Em & Hin & Enm). rewrite Em. cbn [bind].
        destruct (tree_child_gt _ _ _ _ _ _ HT E Hin) as [Hlt _].
        destruct (IH (n_idx m)) as (j & nj & Ej & Enj & Hj); [lia|lia|]. exists j, nj. auto.
      + exists (n_idx n), n. rewrite (tree_idx _ _ _ HT _ _ E). split; [reflexivity|]. split; [exact E|].
        right. congruence.
  Qed.
  Lemma select_leaf_spec s0 st c : tree s0 st ->
    exists j n, select_leaf_node ln 0 st c = Ok j /\ nth_error st j = Some n /\ (n_children n = [] \/ n_exp n <> []).
  Proof.
    intros HT. destruct (tree_root _ _ _ HT) as (n0 & E0 & _). pose proof (nth_error_lt _ _ _ _ E0).
    apply (select_leaf_fuel_spec s0); [exact HT|lia|lia].
  Qed.

  (** ** initial store *)
  Lemma init_inv s st : mcts_init (G := G) s = Ok st ->
    exists vm, g_valid G s = Ok vm /\ st = [mkNode s 0 None [] f0 f0 f0 None vm].
  Proof.
    unfold mcts_init, add_node, node_new. destruct (g_valid G s) as [vm|] eqn:E; cbn; [|discriminate].
    intros [= <-]. eauto.
  Qed.
  Lemma init_tree s st : mcts_init (G := G) s = Ok st -> tree s st.
  Proof.
    intros H. destruct (init_inv _ _ H) as (vm & Ev & ->).
    assert (H1 : forall i n, nth_error [mkNode (G := G) s 0 None [] f0 f0 f0 None vm] i = Some n -> i = 0%nat /\ n = mkNode s 0 None [] f0 f0 f0 None vm).
    { intros [|i] n E; cbn in E; [injection E as <-; auto|destruct i; discriminate]. }
    constructor.
    - eexists. split; [reflexivity|]. auto.
    - intros i n E. destruct (H1 _ _ E) as [-> ->]. reflexivity.
    - intros i n E Hi. destruct (H1 _ _ E) as [-> ->]. lia.
    - intros i n c E Hc. destruct (H1 _ _ E) as [-> ->]. destruct Hc.
    - intros i n E. destruct (H1 _ _ E) as [-> ->]. exists vm, []. cbn. rewrite app_nil_r. auto.
    - intros i n E Hw. destruct (H1 _ _ E) as [-> ->]. reflexivity.
  Qed.

  (** ** one iteration: what happened if it succeeded *)
  Inductive step_kind (s0 : St G) st (r : rng) st' : Prop :=
  | sk_finished i n v : nth_error st i = Some n -> g_winner G (n_state n) <> None ->
      backpropagate i v st = Ok st' -> step_kind s0 st r st'
  | sk_expand i n ex a s' vm' v r1 : nth_error st i = Some n -> g_winner G (n_state n) = None ->
      (n_children n = [] \/ n_exp n <> []) ->
      n_exp n = ex ++ [a] -> g_apply G (n_state n) a r = Ok (s', r1) -> g_valid G s' = Ok vm' ->
      backpropagate (length st) v (set_nth st i (exp_node G n a (length st) ex)
         ++ [mkNode s' (length st) (Some (n_idx n)) [] f0 f0 f0 (Some a) vm']) = Ok st' ->
      step_kind s0 st r st'.

  Lemma iter_inv s0 st r pl cfg st' r' : tree s0 st -> mcts_iter ln pl cfg (st, r) = Ok (st', r') -> step_kind s0 st r st'.
  Proof.
    intros HT H. unfold mcts_iter in H.
    destruct (select_leaf_spec s0 st (cfg_c cfg) HT) as (i & n & Es & E & Hl). rewrite Es in H. cbn [bind] in H.
    unfold get_node at 1 in H. rewrite E in H. cbn [bind] in H.
    destruct (g_winner G (n_state n)) as [w|] eqn:Ew.
    - destruct (outcome G pl w) as [v|]; cbn [bind] in H; [|discriminate].
      destruct (backpropagate i v st) as [st1|] eqn:Eb; cbn [bind] in H; [|discriminate]. injection H as <- <-.
      eapply sk_finished; [exact E|congruence|exact Eb].
    - destruct (expand n st r) as [[[ci st1] r1]|] eqn:Ex; cbn [bind] in H; [|discriminate].
      pose proof (tree_idx _ _ _ HT _ _ E) as Hidx.
      destruct (expand_inv _ _ _ _ _ _ _ Ex) as (ex & a & s' & vm' & Ee & Ea & Ev & -> & ->);
        [rewrite Hidx; eapply nth_error_lt; exact E|].
      destruct (get_node _ (length st)) as [cn|]; cbn [bind] in H; [|discriminate].
      destruct (simulate cn pl (sim_limit cfg) r1) as [[v r2]|]; cbn [bind] in H; [|discriminate].
      destruct (backpropagate (length st) v _) as [st2|] eqn:Eb; cbn [bind] in H; [|discriminate]. injection H as <- <-.
      rewrite Hidx in Eb at 1. eapply sk_expand; eauto.
  Qed.

  Lemma step_tree s0 st r st' : tree s0 st -> step_kind s0 st r st' -> tree s0 st'.
  Proof.
    intros HT [i n v E Hw Eb|i n ex a s' vm' v r1 E Hw Hl Ee Ea Ev Eb].
    - destruct (backprop_spec G i v st) as (st2 & Eb2 & HS & _);
        [eapply nth_error_lt; exact E|eapply tree_parents_down; exact HT|].
      rewrite Eb in Eb2. injection Eb2 as <-. eapply tree_shape; eassumption.
    - pose proof (ex_tree G s0 st i n ex a s' vm' r r1 HT E Hw Ee Ea Ev) as HT1.
      match type of Eb with backpropagate _ _ ?s = _ => set (st1 := s) in * end.
      destruct (backprop_spec G (length st) v st1) as (st2 & Eb2 & HS & _).
      + unfold st1. rewrite app_length, length_set_nth. cbn. lia.
      + eapply tree_parents_down; exact HT1.
      + rewrite Eb in Eb2. injection Eb2 as <-. eapply tree_shape; eassumption.
  Qed.
  Lemma loop_tree s0 pl cfg k : forall st r st' r', tree s0 st -> mcts_loop ln k pl cfg (st, r) = Ok (st', r') -> tree s0 st'.
  Proof.
    induction k as [|k IH]; intros st r st' r' HT H; cbn [mcts_loop] in H; [injection H as <- <-; exact HT|].
    destruct (mcts_iter ln pl cfg (st, r)) as [[st1 r1]|] eqn:E; cbn [bind] in H; [|discriminate].
    eapply IH; [|exact H]. eapply step_tree; [exact HT|]. eapply iter_inv; eassumption.
  Qed.
  Lemma loop_add k1 k2 pl cfg : forall sr, mcts_loop (G := G) ln (k1 + k2) pl cfg sr
    = (sr' <- mcts_loop ln k1 pl cfg sr ;; mcts_loop ln k2 pl cfg sr').
  Proof.
    induction k1 as [|k1 IH]; intros sr; cbn; [reflexivity|].
    destruct (mcts_iter ln pl cfg sr); cbn; [apply IH|reflexivity].
  Qed.

  (** ** visit counters *)
  Lemma zsum_map_ext f g (l : list nat) : (forall c, In c l -> f c = g c) -> zsum (map f l) = zsum (map g l).
  Proof. intros H. f_equal. apply map_ext_in. exact H. Qed.
  Lemma zsum_none f (b : nat -> bool) l : (forall c, In c l -> b c = false) ->
    zsum (map (fun c => f c + (if b c then 1 else 0)) l) = zsum (map f l).
  Proof. intros H. apply zsum_map_ext. intros c Hc. rewrite (H c Hc). lia. Qed.
  Lemma zsum_one f (b : nat -> bool) l c : NoDup l -> In c l -> b c = true -> (forall c', In c' l -> b c' = true -> c' = c) ->
    zsum (map (fun c => f c + (if b c then 1 else 0)) l) = zsum (map f l) + 1.
  Proof.
    induction l as [|x l IH]; intros HN Hin Hb Hu; [destruct Hin|]. inversion HN as [|? ? Hx HN']; subst.
    cbn [map zsum fold_right]. fold (zsum (map f l)). fold (zsum (map (fun c => f c + (if b c then 1 else 0)) l)).
    destruct Hin as [->|Hin].
    - rewrite Hb. rewrite zsum_none; [lia|]. intros c' Hc'. destruct (b c') eqn:E; [|reflexivity].
      assert (c' = c) by (apply Hu; [right; exact Hc'|exact E]). subst. contradiction.
    - destruct (b x) eqn:Ex.
      + assert (x = c) by (apply Hu; [left; reflexivity|exact Ex]). subst. contradiction.
      + rewrite IH; auto; [lia|]. intros c' Hc' Ec'. apply Hu; [right; exact Hc'|exact Ec'].
  Qed.
  Lemma tree_path_root s0 st i : tree s0 st -> (i < length st)%nat -> on_path st i 0.
  Proof.
    intros HT. induction i as [i IH] using (well_founded_induction lt_wf). intros Hi.
    destruct (nth_error_ex _ st i Hi) as [n E]. destruct i as [|i]; [eapply path_here; exact E|].
    destruct (tree_parent _ _ _ HT _ _ E ltac:(lia)) as (p & pn & a & vm & r & r' & Hp & Hlt & Epn & _).
    eapply path_up; [exact E|exact Hp|]. apply IH; [exact Hlt|]. eapply nth_error_lt; exact Epn.
  Qed.

  (** counters of a tree before the backpropagation that starts at the leaf [x] *)
  Lemma bp_visits s0 st x v st' g k : tree s0 st -> (0 < x < length st)%nat -> 0 <= k < 2 ^ 24 ->
    (forall i n, nth_error st i = Some n -> has_visits n (g i) /\ 0 <= g i <= k) ->
    g 0%nat = k ->
    (forall i, (0 < i < length st)%nat -> i <> x -> 1 <= g i) ->
    (forall n, nth_error st 0 = Some n -> k = zsum (map g (n_children n))) ->
    (forall i n, nth_error st i = Some n -> (0 < i)%nat -> i <> x -> g_winner G (n_state n) = None -> g i = 1 + zsum (map g (n_children n))) ->
    (forall n, nth_error st x = Some n -> n_children n = [] /\ (g_winner G (n_state n) = None -> g x = 0)) ->
    backpropagate x v st = Ok st' ->
    visits_ok st' (fun j => g j + (if pathb G st x j then 1 else 0)) (k + 1).
  Proof.
    intros HT Hx Hk HC H0 Hpos Hrs Hs HX Eb.
    pose proof (tree_parents_down _ _ _ HT) as HP.
    destruct (backprop_spec G x v st) as (st2 & Eb2 & HS & HN); [lia|exact HP|]. rewrite Eb in Eb2. injection Eb2 as <-.
    assert (Hb : forall j, pathb G st x j = true <-> on_path st x j) by (intros j; apply pathb_spec; [exact HP|lia]).
    assert (H0b : pathb G st x 0 = true) by (apply Hb; eapply tree_path_root; [exact HT|lia]).
    assert (Hback : forall j n', nth_error st' j = Some n' -> exists n, nth_error st j = Some n /\ same_shape G n n'
        /\ n' = if pathb G st x j then bump n v else n).
    { intros j n' E'. destruct (shape_eq_nth _ _ _ _ _ (shape_eq_sym _ _ _ HS) E') as (n & E & Hsh). exists n.
      split; [exact E|]. split; [apply same_shape_sym; exact Hsh|].
      destruct (HN j n E) as [H1 H2]. destruct (pathb G st x j) eqn:Ep.
      - apply Hb in Ep. rewrite (H1 Ep) in E'. congruence.
      - assert (Hnp : ~ on_path st x j) by (rewrite <- Hb; congruence). rewrite (H2 Hnp) in E'. congruence. }
    (** children sums *)
    assert (Hsum : forall j n, nth_error st j = Some n -> pathb G st x j = true -> j <> x ->
        zsum (map (fun c => g c + (if pathb G st x c then 1 else 0)) (n_children n)) = zsum (map g (n_children n)) + 1).
    { intros j n E Hpj Hjx. apply Hb in Hpj.
      destruct (on_path_child _ _ _ _ Hpj ltac:(congruence)) as (c & cn & Hc & Ec & Hcp).
      assert (Hin : In c (n_children n)).
      { pose proof (HP _ _ _ Ec Hcp) as Hlt.
        destruct (tree_parent _ _ _ HT _ _ Ec ltac:(lia)) as (p & pn & a & vm & q & q' & Hp & _ & Epn & Hcnt & _).
        rewrite Hcp in Hp. injection Hp as <-. rewrite E in Epn. injection Epn as <-. apply (count_occ_In Nat.eq_dec). lia. }
      apply (zsum_one g (pathb G st x) _ c); [eapply tree_children_nodup; eassumption|exact Hin|apply Hb; exact Hc|].
      intros c' Hin' Hc'. apply Hb in Hc'. destruct (tree_child_gt _ _ _ _ _ _ HT E Hin') as (_ & cn' & Ec' & Hcp' & _).
      eapply on_path_child_unique; [exact HP|exact Hc'|exact Hc|exact Ec'|exact Ec|exact Hcp'|exact Hcp]. }
    assert (Hsum0 : forall j n, nth_error st j = Some n -> pathb G st x j = false ->
        zsum (map (fun c => g c + (if pathb G st x c then 1 else 0)) (n_children n)) = zsum (map g (n_children n))).
    { intros j n E Hpj. apply (zsum_none g (pathb G st x)). intros c Hin. destruct (pathb G st x c) eqn:Ec; [|reflexivity].
      apply Hb in Ec. destruct (tree_child_gt _ _ _ _ _ _ HT E Hin) as (_ & cn & Ecn & Hcp & _).
      assert (on_path st x j) by (eapply on_path_parent; [exact Ec|exact Ecn|exact Hcp|eauto]).
      apply Hb in H. congruence. }
    constructor.
    - intros j n' E'. destruct (Hback _ _ E') as (n & E & _ & ->). destruct (HC _ _ E) as [Hv Hr].
      destruct (pathb G st x j).
      + unfold has_visits in *. cbn [bump n_visits]. rewrite Hv, counter_step by lia. split; [reflexivity|lia].
      + rewrite Z.add_0_r. split; [exact Hv|lia].
    - rewrite H0b, H0. reflexivity.
    - intros j Hj. rewrite <- (shape_eq_length _ _ _ HS) in Hj. destruct (Nat.eq_dec j x) as [->|Hne].
      + assert (pathb G st x x = true) as ->. { apply Hb. destruct (nth_error_ex _ st x) as [n E]; [lia|]. eapply path_here; exact E. }
        destruct (nth_error_ex _ st x) as [n E]; [lia|]. destruct (HC _ _ E). lia.
      + specialize (Hpos j Hj Hne). destruct (pathb G st x j); lia.
    - intros n' E'. destruct (Hback _ _ E') as (n & E & Hsh & _). destruct Hsh as (S1 & S2 & S3 & S4 & _). rewrite <- S4.
      rewrite (Hsum 0%nat n E H0b ltac:(lia)). specialize (Hrs n E). lia.
    - intros j n' E' Hj Hw. destruct (Hback _ _ E') as (n & E & Hsh & _). destruct Hsh as (S1 & S2 & S3 & S4 & _). rewrite <- S4.
      rewrite <- S1 in Hw. destruct (Nat.eq_dec j x) as [->|Hne].
      + assert (pathb G st x x = true) as -> by (apply Hb; eapply path_here; exact E).
        destruct (HX _ E) as [Hch Hg]. rewrite Hch, (Hg Hw). reflexivity.
      + specialize (Hs j n E Hj Hne Hw). destruct (pathb G st x j) eqn:Ep.
        * rewrite (Hsum j n E Ep Hne). lia.
        * rewrite (Hsum0 j n E Ep). lia.
  Qed.

  Lemma step_visits s0 st r st' f k : tree s0 st -> g_winner G s0 = None -> step_kind s0 st r st' ->
    visits_ok st f k -> 0 <= k < 2 ^ 24 -> exists f', visits_ok st' f' (k + 1).
  Proof.
    intros HT Hw0 Hstep [HC H0 Hpos Hrs Hs] Hk.
    destruct Hstep as [i n v E Hw Eb|i n ex a s' vm' v r1 E Hw Hl Ee Ea Ev Eb].
    - eexists. eapply (bp_visits s0 st i v st' f k); try eassumption.
      + split; [|eapply nth_error_lt; exact E]. destruct i as [|i]; [|lia].
        destruct (tree_root _ _ _ HT) as (n0 & E0 & _ & _ & Hs0). rewrite E in E0. injection E0 as ->. congruence.
      + intros j Hj _. apply Hpos. exact Hj.
      + intros j m Em Hj _ Hwm. eapply Hs; eassumption.
      + intros m Em. rewrite E in Em. injection Em as <-. split; [eapply tree_leaf; eassumption|]. intros Hw'. congruence.
    - pose proof (ex_tree G s0 st i n ex a s' vm' r r1 HT E Hw Ee Ea Ev) as HT1.
      pose proof (ex_len G st i n ex a s' vm') as HL.
      pose proof (ex_nth G st i n ex a s' vm' E) as HNth.
      pose proof (ex_old G st i n ex a s' vm' E) as HOld. pose proof (nth_error_lt _ _ _ _ E) as Hi.
      cbv zeta in HOld.
      match type of Eb with backpropagate _ _ ?s = _ => set (st1 := s) in * end.
      set (g := fun j => if (j =? length st)%nat then 0 else f j).
      assert (Hg : forall l, (forall c, In c l -> (c < length st)%nat) -> zsum (map g l) = zsum (map f l)).
      { intros l Hl'. apply zsum_map_ext. intros c Hc. unfold g. specialize (Hl' c Hc). destruct (Nat.eqb_spec c (length st)); [lia|reflexivity]. }
      assert (Hg1 : forall l, (forall c, In c l -> (c < length st)%nat) -> zsum (map g (l ++ [length st])) = zsum (map f l)).
      { intros l Hl'. rewrite map_app. unfold zsum. rewrite fold_right_app. cbn [map fold_right].
        replace (g (length st) + 0) with 0 by (unfold g; rewrite Nat.eqb_refl; lia). apply Hg. exact Hl'. }
      assert (Hch : forall j m c, nth_error st j = Some m -> In c (n_children m) -> (c < length st)%nat).
      { intros j m c Em Hc. destruct (tree_child_gt _ _ _ _ _ _ HT Em Hc) as [Hlt _]. lia. }
      eexists. eapply (bp_visits s0 st1 (length st) v st' g k); try eassumption.
      + rewrite HL. lia.
      + intros j m Em. destruct (Nat.eq_dec j (length st)) as [->|Hj].
        * rewrite HNth, Nat.eqb_refl in Em. injection Em as <-. unfold g. rewrite Nat.eqb_refl. split; [reflexivity|lia].
        * destruct (HOld _ _ Em Hj) as (m0 & E0 & X1 & X2 & X3 & X4 & X5 & _). destruct (HC _ _ E0) as [Hv Hr].
          unfold g, has_visits in *. destruct (Nat.eqb_spec j (length st)); [contradiction|]. split; [congruence|exact Hr].
      + unfold g. destruct (Nat.eqb_spec 0 (length st)); [lia|exact H0].
      + intros j Hj Hne. unfold g. destruct (Nat.eqb_spec j (length st)); [contradiction|]. apply Hpos. lia.
      + intros m Em. assert (H0n : 0%nat <> length st) by lia.
        destruct (HOld _ _ Em H0n) as (m0 & E0 & X1 & X2 & X3 & X4 & X5 & X6 & X7 & [(Xi & -> & XC & XE)|(Hji & ->)]).
        * rewrite XC, Hg1 by (intros c Hc; eapply Hch; [exact E|exact Hc]). apply Hrs. rewrite Xi. exact E.
        * rewrite Hg by (intros c Hc; eapply Hch; [exact E0|exact Hc]). apply Hrs. exact E0.
      + intros j m Em Hj Hne Hwm.
        destruct (HOld _ _ Em Hne) as (m0 & E0 & X1 & X2 & X3 & X4 & X5 & X6 & X7 & [(Xi & -> & XC & XE)|(Hji & ->)]).
        * unfold g at 1. destruct (Nat.eqb_spec j (length st)); [contradiction|]. rewrite XC, Hg1 by (intros c Hc; eapply Hch; [exact E|exact Hc]).
          eapply Hs; [exact E0|exact Hj|exact Hw].
        * unfold g at 1. destruct (Nat.eqb_spec j (length st)); [contradiction|]. rewrite Hg by (intros c Hc; eapply Hch; [exact E0|exact Hc]).
          eapply Hs; eassumption.
      + intros m Em. rewrite HNth, Nat.eqb_refl in Em. injection Em as <-. split; [reflexivity|]. intros _.
        unfold g. rewrite Nat.eqb_refl. reflexivity.
  Qed.
  Lemma init_visits s st : mcts_init (G := G) s = Ok st -> visits_ok st (fun _ => 0) 0.
  Proof.
    intros H. destruct (init_inv _ _ H) as (vm & Ev & ->).
    assert (H1 : forall i n, nth_error [mkNode (G := G) s 0 None [] f0 f0 f0 None vm] i = Some n -> i = 0%nat /\ n = mkNode s 0 None [] f0 f0 f0 None vm).
    { intros [|i] n E; cbn in E; [injection E as <-; auto|destruct i; discriminate]. }
    constructor.
    - intros i n E. destruct (H1 _ _ E) as [-> ->]. split; [reflexivity|lia].
    - reflexivity.
    - cbn. intros i Hi. lia.
    - intros n E. destruct (H1 _ _ E) as [_ ->]. reflexivity.
    - intros i n E Hi. destruct (H1 _ _ E) as [-> ->]. lia.
  Qed.
  Lemma loop_visits s0 pl cfg : g_winner G s0 = None -> forall j st r st' r' f k, tree s0 st -> visits_ok st f k ->
    0 <= k -> k + Z.of_nat j <= 2 ^ 24 -> mcts_loop ln j pl cfg (st, r) = Ok (st', r') -> exists f', visits_ok st' f' (k + Z.of_nat j).
  Proof.
    intros Hw0. induction j as [|j IH]; intros st r st' r' f k HT HV Hk Hj H; cbn [mcts_loop] in H.
    - injection H as <- <-. exists f. replace (k + Z.of_nat 0) with k by lia. exact HV.
    - destruct (mcts_iter ln pl cfg (st, r)) as [[st1 r1]|] eqn:E; cbn [bind] in H; [|discriminate].
      pose proof (iter_inv _ _ _ _ _ _ _ HT E) as Hstep.
      destruct (step_visits _ _ _ _ _ _ HT Hw0 Hstep HV ltac:(lia)) as [f' HV'].
      replace (k + Z.of_nat (S j)) with ((k + 1) + Z.of_nat j) by lia.
      eapply IH; [eapply step_tree; eassumption|exact HV'|lia|lia|exact H].
  Qed.

  (** ** No panic *)
  Variable I : St G -> Prop.
  Hypothesis HG : good G I.
  Definition all_I st : Prop := forall n, In n st -> I (n_state n).

  Lemma outcome_ok pl w : -127 <= pl <= 127 -> exists v, outcome G pl w = Ok v.
  Proof.
    intros Hp. unfold outcome. destruct (w =? pl); [eauto|]. rewrite i8_ok by lia. cbn. eauto.
  Qed.
  Lemma simulate_loop_ok pl : -127 <= pl <= 127 -> forall limit self curr r, I curr ->
    exists v r', simulate_loop self curr pl limit r = Ok (v, r').
  Proof.
    intros Hp. induction limit as [|limit IH]; intros self curr r Hc; cbn [simulate_loop]; [eauto|].
    destruct (g_winner G self) as [w|] eqn:Ew.
    - destruct (outcome_ok pl w Hp) as [v Ev]. rewrite Ev. cbn. eauto.
    - destruct (good_valid _ _ HG curr Hc) as [vm Evm]. rewrite Evm. cbn [bind].
      destruct vm as [|m0 vm].
      + destruct (good_skip _ _ HG curr r Hc) as (s' & r' & Es & Hs'). rewrite Es. cbn [bind]. apply IH. exact Hs'.
      + destruct (choose_spec _ (m0 :: vm) r m0 vm eq_refl) as (m & r1 & Ec & Hm). rewrite Ec.
        destruct (good_apply _ _ HG curr _ m r1 Hc Evm Hm) as (s' & r' & Es & Hs'). rewrite Es. cbn [bind]. apply IH. exact Hs'.
  Qed.
  Lemma all_I_shape st st' : shape_eq G st st' -> all_I st -> all_I st'.
  Proof.
    intros HS HI n Hn. apply In_nth_error in Hn. destruct Hn as [i E].
    destruct (shape_eq_nth _ _ _ _ _ (shape_eq_sym _ _ _ HS) E) as (n' & E' & Hs & _). rewrite Hs. apply HI. eapply nth_error_In; exact E'.
  Qed.

  (** a node that stops the search: unfinished, but without valid moves *)
  Definition stuck_node st : Prop :=
    exists n, In n st /\ I (n_state n) /\ g_winner G (n_state n) = None /\ g_valid G (n_state n) = Ok [].

  Lemma iter_total s0 st r pl cfg : -127 <= pl <= 127 -> tree s0 st -> all_I st ->
    (exists st' r', mcts_iter ln pl cfg (st, r) = Ok (st', r') /\ all_I st' /\ (length st <= length st')%nat
        /\ (forall n, st = [n] -> g_winner G (n_state n) = None -> (1 < length st')%nat))
    \/ (mcts_iter ln pl cfg (st, r) = Panic PExplicit /\ stuck_node st).
  Proof.
    intros Hp HT HI. unfold mcts_iter.
    destruct (select_leaf_spec s0 st (cfg_c cfg) HT) as (i & n & Es & E & Hl). rewrite Es. cbn [bind].
    assert (HX : get_node st i = Ok n) by (unfold get_node; rewrite E; reflexivity). rewrite HX. cbn [bind]. pose proof (nth_error_lt _ _ _ _ E) as Hi.
    pose proof (nth_error_In _ _ E) as Hin. pose proof (tree_idx _ _ _ HT _ _ E) as Hidx.
    destruct (g_winner G (n_state n)) as [w|] eqn:Ew.
    - left. destruct (outcome_ok pl w Hp) as [v Ev]. rewrite Ev. cbn [bind].
      destruct (backprop_spec G i v st Hi (tree_parents_down _ _ _ HT)) as (st' & Eb & HS & _). rewrite Eb. cbn [bind].
      exists st', r. split; [reflexivity|]. split; [eapply all_I_shape; eassumption|]. split; [rewrite (shape_eq_length _ _ _ HS); lia|].
      intros m -> Hwm. destruct Hin as [->|[]]. congruence.
    - destruct (tree_moves _ _ _ HT _ _ E) as (vm & acts & Evm & Hvm & HF).
      destruct (n_exp n) as [|m0 l0] eqn:Ee0.
      + right. assert (Hc : n_children n = []) by (destruct Hl as [Hl|Hl]; [exact Hl|congruence]).
        rewrite Hc in HF. inversion HF; subst. unfold expand. rewrite Ee0. cbn [rev bind]. split; [reflexivity|].
        exists n. split; [exact Hin|]. split; [apply HI; exact Hin|]. split; [exact Ew|]. exact Evm.
      + left. destruct (exists_last (l := n_exp n)) as (ex & a & Ee); [rewrite Ee0; discriminate|].
        rewrite <- Ee0 in Hvm.
        assert (Ha : In a vm) by (rewrite Hvm, Ee; apply in_or_app; left; apply in_or_app; right; left; reflexivity).
        destruct (good_apply _ _ HG _ _ a r (HI _ Hin) Evm Ha) as (s' & r1 & Ea & Hs').
        destruct (good_valid _ _ HG s' Hs') as [vm' Evm'].
        pose proof (ex_tree G s0 st i n ex a s' vm' r r1 HT E Ew Ee Ea Evm') as HT1.
        assert (Ex : expand n st r = Ok (length st, set_nth st i (exp_node G n a (length st) ex)
           ++ [mkNode s' (length st) (Some (n_idx n)) [] f0 f0 f0 (Some a) vm'], r1)).
        { unfold expand. rewrite Ee, rev_app_distr. cbn [rev app]. rewrite Ea. cbn [bind]. unfold add_node, node_new.
          rewrite Evm'. cbn [bind]. unfold set_node. cbn [n_idx]. rewrite app_length. cbn [length].
          destruct (Nat.ltb_spec (n_idx n) (length st + 1)); [|lia]. cbn [bind]. rewrite set_nth_app by (rewrite Hidx; exact Hi).
          rewrite rev_involutive, Hidx. unfold exp_node. rewrite Hidx. reflexivity. }
        rewrite Ex. cbn [bind].
        match goal with |- context [get_node ?s (length st)] => set (st1 := s) in * end.
        assert (HL : length st1 = S (length st)) by (unfold st1; rewrite app_length, length_set_nth; cbn; lia).
        assert (HI1 : all_I st1).
        { intros m Hm. apply in_app_or in Hm. destruct Hm as [Hm|[<-|[]]]; [|exact Hs'].
          apply In_nth_error in Hm. destruct Hm as [j Ej]. destruct (Nat.eq_dec i j) as [<-|Hne].
          - rewrite nth_error_set_same in Ej by exact Hi. injection Ej as <-. apply (HI n). exact Hin.
          - rewrite nth_error_set_other in Ej by exact Hne. apply HI. eapply nth_error_In; exact Ej. }
        destruct (nth_error_ex _ st1 (length st)) as [cn Ecn]; [lia|]. unfold get_node. rewrite Ecn. cbn [bind].
        destruct (simulate_loop_ok pl Hp (sim_limit cfg) (n_state cn) (n_state cn) r1) as (v & r2 & Esim);
          [apply HI1; eapply nth_error_In; exact Ecn|].
        unfold simulate. rewrite Esim. cbn [bind].
        destruct (backprop_spec G (length st) v st1 ltac:(lia) (tree_parents_down _ _ _ HT1)) as (st' & Eb & HS & _). rewrite Eb. cbn [bind].
        exists st', r2. split; [reflexivity|]. split; [eapply all_I_shape; eassumption|].
        rewrite <- (shape_eq_length _ _ _ HS), HL. split; [lia|]. intros; lia.
  Qed.
  Lemma loop_total s0 pl cfg : -127 <= pl <= 127 -> forall k st r, tree s0 st -> all_I st ->
    (exists st' r', mcts_loop ln k pl cfg (st, r) = Ok (st', r') /\ tree s0 st' /\ all_I st' /\ (length st <= length st')%nat
       /\ ((0 < k)%nat -> forall n, st = [n] -> g_winner G (n_state n) = None -> (1 < length st')%nat))
    \/ (mcts_loop ln k pl cfg (st, r) = Panic PExplicit /\ exists s, I s /\ g_winner G s = None /\ g_valid G s = Ok []).
  Proof.
    intros Hp. induction k as [|k IH]; intros st r HT HI; cbn [mcts_loop].
    - left. exists st, r. split; [reflexivity|]. split; [exact HT|]. split; [exact HI|]. split; [lia|]. intros H0; lia.
    - destruct (iter_total s0 st r pl cfg Hp HT HI) as [(st1 & r1 & E & HI1 & HL & H1)|(E & n & Hn & HIn & Hw & Hv)].
      + pose proof (step_tree _ _ _ _ HT (iter_inv _ _ _ _ _ _ _ HT E)) as HT1. rewrite E. cbn [bind].
        destruct (IH st1 r1 HT1 HI1) as [(st2 & r2 & E2 & HT2 & HI2 & HL2 & _)|H]; [|right; exact H].
        left. exists st2, r2. split; [exact E2|]. split; [exact HT2|]. split; [exact HI2|]. split; [lia|].
        intros _ n Hn Hw. specialize (H1 n Hn Hw). lia.
      + right. rewrite E. split; [reflexivity|]. eauto.
  Qed.

  (** the final choice *)
  Lemma select_final s0 st : tree s0 st ->
    exists m, select_most_visits 0 st = Ok m
      /\ ((length st <= 1)%nat -> m = g_empty G)
      /\ ((1 < length st)%nat -> exists vm, g_valid G s0 = Ok vm /\ In m vm).
  Proof.
    intros HT. destruct (tree_root _ _ _ HT) as (n0 & E0 & _ & _ & Hs0).
    destruct (children_of_spec _ _ _ _ HT E0) as (ch & Ech & HF & Hch).
    unfold select_most_visits, get_node at 1. rewrite E0. cbn [bind]. rewrite Ech. cbn [bind].
    destruct (n_children n0) as [|c0 cs] eqn:Ec.
    - inversion HF; subst. rewrite best_by_nil. cbn [bind action_or_empty]. eexists. split; [reflexivity|].
      split; [reflexivity|]. intros Hlt. exfalso.
      destruct (nth_error_ex _ st 1 Hlt) as [n1 E1].
      destruct (tree_parent _ _ _ HT _ _ E1 ltac:(lia)) as (p & pn & a & vm & r & r' & Hp & Hpl & Epn & Hcnt & _).
      replace p with 0%nat in Epn by lia. rewrite E0 in Epn. injection Epn as <-. rewrite Ec in Hcnt. cbn in Hcnt. lia.
    - destruct (best_by_ok (fun m => Ok (n_visits m)) ch) as (m & Eb & Hm).
      { intros; eauto. } { intros ->. inversion HF. }
      rewrite Eb. cbn [bind]. eexists. split; [reflexivity|].
      destruct (Hch m Hm) as (Hin & Em & Hp).
      assert (H0 : (0 < n_idx m)%nat) by (pose proof (tree_parents_down _ _ _ HT _ _ _ Em Hp); lia).
      split.
      + intros Hle. pose proof (nth_error_lt _ _ _ _ Em). lia.
      + intros _. destruct (tree_parent _ _ _ HT _ _ Em H0) as (p & pn & a & vm & r & r' & Hp' & _ & Epn & _ & Ha & Hv & Hinv & _).
        rewrite Hp in Hp'. injection Hp' as <-. rewrite E0 in Epn. injection Epn as <-. rewrite Hs0 in Hv.
        exists vm. split; [exact Hv|]. cbn [action_or_empty]. rewrite Ha. exact Hinv.
  Qed.

  Lemma search_total s pl cfg r : -127 <= pl <= 127 -> I s ->
    (exists m r', mct_search ln s pl cfg r = Ok (m, r')
       /\ (g_winner G s <> None \/ iterations cfg = 0%nat -> m = g_empty G)
       /\ (g_winner G s = None -> (0 < iterations cfg)%nat -> exists vm, g_valid G s = Ok vm /\ In m vm))
    \/ (mct_search ln s pl cfg r = Panic PExplicit /\ exists s', I s' /\ g_winner G s' = None /\ g_valid G s' = Ok []).
  Proof.
    intros Hp Hs. unfold mct_search. destruct (g_winner G s) as [w|] eqn:Ew.
    - left. exists (g_empty G), r. split; [reflexivity|]. split; [reflexivity|]. discriminate.
    - destruct (good_valid _ _ HG s Hs) as [vm Evm].
      assert (Ei : mcts_init (G := G) s = Ok [mkNode s 0 None [] f0 f0 f0 None vm])
        by (unfold mcts_init, add_node, node_new; rewrite Evm; reflexivity).
      rewrite Ei. cbn [bind]. pose proof (init_tree _ _ Ei) as HT.
      assert (HI : all_I [mkNode (G := G) s 0 None [] f0 f0 f0 None vm]) by (intros n [<-|[]]; exact Hs).
      destruct (loop_total s pl cfg Hp (iterations cfg) _ r HT HI) as [(st' & r' & E & HT' & HI' & HL & H1)|(E & H)].
      + rewrite E. cbn [bind]. destruct (select_final s st' HT') as (m & Em & Hle & Hgt). rewrite Em. cbn [bind].
        left. exists m, r'. split; [reflexivity|]. split.
        * intros [H|H]; [congruence|]. rewrite H in E. cbn in E. injection E as <- <-. apply Hle. cbn. lia.
        * intros _ Hit. apply Hgt. eapply H1; [exact Hit|reflexivity|exact Ew].
      + right. rewrite E. cbn [bind]. auto.
  Qed.
End P2.
