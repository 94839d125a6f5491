(** * AlphaPar2: the expansion phase, whole iterations and whole batched searches. *)
From Verif Require Import Base BaseFacts F32 F32Facts Tensor TensorFacts GameModel McModel McSpec AlphaModel AlphaSpec McProof McProof2 AlphaProof AlphaPar.
From Coq Require Import Arith Permutation.
Require Import ZifyBool ZifyNat.

(** ** shapes *)
Lemma shape_eqb_refl l : shape_eqb l l = true.
Proof. induction l as [|x l IH]; cbn; [reflexivity|]. rewrite Nat.eqb_refl. exact IH. Qed.
Lemma stack0_shape (A : Type) (d : A) ts sh : ts <> [] -> (forall t, In t ts -> shape t = sh) ->
  exists x, stack d 0 ts = Ok x /\ shape x = length ts :: sh.
Proof.
  intros Hne H. unfold stack. destruct ts as [|t ts]; [congruence|].
  assert (Hall : forallb (fun u => shape_eqb (shape u) (shape t)) (t :: ts) = true).
  { apply forallb_forall. intros u Hu. rewrite (H u Hu), (H t (or_introl eq_refl)). apply shape_eqb_refl. }
  rewrite Hall. cbn [Nat.leb andb]. eexists. split; [reflexivity|]. cbn [shape]. rewrite (H t (or_introl eq_refl)). reflexivity.
Qed.
Lemma forall2_len (A B : Type) (P : A -> B -> Prop) l l' : Forall2 P l l' -> length l = length l'.
Proof. induction 1; cbn; congruence. Qed.
Lemma batch_ok (G : Game) sh (ss : list (St G)) : ss <> [] ->
  (forall s, In s ss -> exists x, g_tensor G s = Ok x /\ shape x = 1%nat :: sh) ->
  exists x, batch ss = Ok x /\ shape x = length ss :: sh.
Proof.
  intros Hne H. unfold batch. destruct (mmap_all_ok _ _ (g_tensor G) ss) as [xs Exs].
  { intros s Hs. destruct (H s Hs) as (x & Ex & _). eauto. }
  rewrite Exs. cbn [bind]. pose proof (mmap_ok_in _ _ _ _ _ Exs) as HF.
  destruct (stack0_shape _ 0 xs (1%nat :: sh)) as (x & Ex & Hx).
  - intros ->. inversion HF; subst. congruence.
  - intros t Ht. destruct (forall2_in_r _ _ _ _ _ _ HF Ht) as (s & Hs & Es). destruct (H s Hs) as (x & Ex & Hx). congruence.
  - rewrite Ex. cbn [bind]. eexists. split; [reflexivity|]. unfold squeeze_dim. rewrite Hx. cbn. rewrite (forall2_len _ _ _ _ _ HF). reflexivity.
Qed.

(** ** priors are defined on the codes of the game *)
Lemma probs_tensor_ok N (policy : list (V N)) codes : (forall c, In c codes -> 0 <= c < Z.of_nat (length policy)) ->
  exists p, probs_tensor N policy codes = Ok p /\ length p = length policy.
Proof.
  intros H. unfold probs_tensor. destruct (mmap_all_ok _ _ (idx policy) codes) as [vals Ev].
  { intros c Hc. specialize (H c Hc). rewrite (idx_ok _ (v0 N)) by exact H. eauto. }
  rewrite Ev. cbn [bind]. rewrite put1_puts.
  destruct (puts_ok _ (combine codes vals) (map (fun _ => v0 N) policy)) as (r & Er & HL).
  { apply Forall_forall. intros [c v] Hcv. apply in_combine_l in Hcv. rewrite map_length. apply H. exact Hcv. }
  rewrite Er. cbn [bind]. eexists. split; [reflexivity|]. rewrite map_length, HL, map_length. reflexivity.
Qed.
Lemma probs_tensor_len N (policy : list (V N)) codes p : probs_tensor N policy codes = Ok p -> length p = length policy.
Proof.
  unfold probs_tensor. destruct (mmap (idx policy) codes) as [vals|]; cbn [bind]; [|discriminate]. rewrite put1_puts.
  destruct (puts (map (fun _ => v0 N) policy) (combine codes vals)) as [r|] eqn:Er; cbn [bind]; [|discriminate].
  intros [= <-]. apply (puts_inv _ (v0 N)) in Er. destruct Er as [HL _]. rewrite map_length, HL, map_length. reflexivity.
Qed.

Section B.
  Variable G : Game.
  Variable I : St G -> Prop.
  Hypothesis HA : alpha_game G I.
  Variable tsum : list f32 -> f32.
  Variable nt : net.
  Variable cfg : mcfg.
  Variable roots : list (St G).
  Implicit Types (st : store G) (n : node G).
  Notation inv := (inv G I roots).
  Notation grows := (grows G).
  Notation counters := (counters G).

  Lemma pathb_grows st st' i j : inv st -> inv st' -> grows st st' -> (i < length st)%nat -> pathb G st' i j = pathb G st i j.
  Proof.
    intros [HF _] [HF' _] (HL & _ & HP) Hi. apply bool_iff_eq.
    rewrite !pathb_spec; [apply HP; exact Hi|eapply forest_parents_down; exact HF|exact Hi|eapply forest_parents_down; exact HF'|lia].
  Qed.

  (** ** one entry of the expansion phase *)
  Fixpoint more (k : nat) (v : f32) : f32 := match k with O => v | S k' => fadd (more k' v) f1 end.
  Lemma more_add a b v : more (a + b) v = more a (more b v).
  Proof. induction a as [|a IH]; [reflexivity|]. cbn [Nat.add more]. rewrite <- IH. reflexivity. Qed.
  Lemma par_process_inv policy eval st r k i st' r' : inv st -> (i < length st)%nat ->
    par_process tsum policy eval (st, r) (k, i) = Ok (st', r') ->
    inv st' /\ grows st st' /\ (counters st -> counters st')
    /\ (forall j n, nth_error st j = Some n -> exists n', nth_error st' j = Some n'
          /\ n_visits n' = more (if pathb G st i j then 1 else 0) (n_visits n)).
  Proof.
    intros HV Hi H. unfold par_process in H. destruct (nth_error_ex _ st i Hi) as [n En]. unfold get_node in H. rewrite En in H. cbn [bind] in H.
    destruct (select0 policy k) as [p_i|]; cbn [bind] in H; [|discriminate].
    destruct (select0 eval k) as [e_i|]; cbn [bind] in H; [|discriminate].
    destruct (turn_policy_to_probs_tensor tsum p_i n) as [prob|]; cbn [bind] in H; [|discriminate].
    destruct (alpha_expand_tensor prob n st r) as [[[n' st1] r1]|] eqn:Ex; cbn [bind] in H; [|discriminate].
    destruct (double_value e_i [0%nat]) as [v|]; cbn [bind] in H; [|discriminate].
    destruct (expand_all G I HA roots st i n n _ r n' st1 r1 HV En (same_shape_refl _ _) ltac:(auto) ltac:(auto) Ex) as (HV1 & HG1 & HC1 & Hold & Hni & Hn' & _).
    assert (Hidx : n_idx n = i) by (eapply fo_idx; [apply HV|exact En]). rewrite Hidx in H.
    assert (Hi1 : (i < length st1)%nat) by (destruct HG1 as [HL _]; lia).
    destruct (backprop_all G I roots st1 i v HV1 Hi1) as (st2 & Eb & HS & HN). rewrite Eb in H. cbn [bind] in H. injection H as <- <-.
    assert (HB : forall j m, nth_error st1 j = Some m -> nth_error st2 j = Some (match (if pathb G st1 i j then Some v else None) with Some v => bump m v | None => m end)).
    { intros j m Em. rewrite (HN j m Em). destruct (pathb G st1 i j); reflexivity. }
    split; [eapply inv_shape; eassumption|]. split; [eapply grows_trans; [exact HG1|eapply bumped_grows; [exact HS|exact HB]]|].
    split; [intros Hc; eapply bumped_counters; [exact HS|exact HB|apply HC1; exact Hc]|].
    intros j m Em. pose proof (nth_error_lt _ _ _ _ Em) as Hj.
    assert (Hm1 : exists m1, nth_error st1 j = Some m1 /\ n_visits m1 = n_visits m).
    { destruct (Nat.eq_dec j i) as [->|Hne]; [|exists m; rewrite Hold by assumption; auto].
      rewrite En in Em. injection Em as <-. exists n'. split; [exact Hni|]. rewrite Hn'. reflexivity. }
    destruct Hm1 as (m1 & Em1 & Hv). rewrite (HB j m1 Em1). rewrite (pathb_grows st st1 i j HV HV1 HG1 Hi).
    eexists. split; [reflexivity|]. destruct (pathb G st i j); cbn; rewrite Hv; reflexivity.
  Qed.
  Lemma par_process_ok k i st r x m : inv st -> (i < length st)%nat -> net_ok G nt -> (exists sh, shape x = m :: sh) -> (k < m)%nat ->
    exists st' r', par_process tsum (net_policy nt x) (net_value nt x) (st, r) (k, i) = Ok (st', r').
  Proof.
    intros HV Hi HNet [sh Hsh] Hk. destruct (HNet x m sh Hsh) as (Sp & Lp & Sv & Lv).
    unfold par_process. destruct (nth_error_ex _ st i Hi) as [n En]. unfold get_node. rewrite En. cbn [bind].
    rewrite (select0_row _ _ _ _ _ Sp Hk), (select0_row _ _ _ _ _ Sv Hk). cbn [bind].
    assert (HLrow : length (firstn (asize G) (skipn (k * asize G) (data (net_policy nt x)))) = asize G)
      by (apply (firstn_skipn_len _ _ _ _ m); [exact Lp|exact Hk]).
    assert (HIn : I (n_state n)) by (eapply all_I_nth; [apply HV|exact En]).
    assert (HAs : Z.of_nat (asize G) = g_actions G) by (pose proof (ag_actions _ _ HA); unfold asize in *; lia).
    destruct HV as [HF HI].
    assert (Hexp : forall a, In a (n_exp n) -> (exists vm, g_valid G (n_state n) = Ok vm /\ In a vm) /\ exists c, g_encode G (n_state n) a = Ok c /\ 0 <= c < Z.of_nat (asize G)).
    { intros a Ha. destruct (fo_moves _ _ _ HF _ _ En) as (vm & Hv & Hor).
      assert (Hin : In a vm) by (destruct Hor as [[_ He]|[He _]]; [congruence|rewrite He in Ha; destruct Ha]).
      split; [eauto|]. destruct (ag_codec _ _ HA _ _ _ HIn Hv Hin) as (c & Ec & Hc & _). exists c. split; [exact Ec|lia]. }
    unfold turn_policy_to_probs_tensor, encode_all. cbn [data shape].
    destruct (mmap_all_ok _ _ (g_encode G (n_state n)) (n_exp n)) as [codes Ecodes].
    { intros a Ha. destruct (Hexp a Ha) as [_ (c & Ec & _)]. eauto. }
    rewrite Ecodes. cbn [bind]. pose proof (mmap_ok_in _ _ _ _ _ Ecodes) as HF2.
    destruct (probs_tensor_ok (num32 tsum) (firstn (asize G) (skipn (k * asize G) (data (net_policy nt x)))) codes) as (p & Ep & HLp).
    { intros c Hc. destruct (forall2_in_r _ _ _ _ _ _ HF2 Hc) as (a & Ha & Ea). destruct (Hexp a Ha) as [_ (c' & Ec & Hr)].
      rewrite Ea in Ec. injection Ec as <-. change (V (num32 tsum)) with f32. rewrite HLrow. exact Hr. }
    rewrite Ep. cbn [bind]. change (V (num32 tsum)) with f32 in HLp. rewrite HLrow in HLp.
    set (prob := {| shape := [asize G]; data := p |} : tensor f32).
    assert (Hloop : forall acts ch st0 r0, (forall a, In a acts -> In a (n_exp n)) ->
      exists ch' st' r', alpha_expand_loop (fun c => double_value prob [Z.to_nat c]) n acts ch st0 r0 = Ok (ch', st', r')).
    { induction acts as [|a acts IH]; intros ch st0 r0 Hin; cbn [alpha_expand_loop]; [eauto|].
      destruct (Hexp a (Hin a (or_introl eq_refl))) as [(vm & Hv & Hm) (c & Ec & Hc)]. rewrite Ec. cbn [bind].
      rewrite (double_value_1 _ f0 prob (asize G)) by (try reflexivity; try exact HLp; lia). cbn [bind].
      destruct (good_apply _ _ (ag_good _ _ HA) _ _ _ r0 HIn Hv Hm) as (s' & r' & Eap & HIs). rewrite Eap. cbn [bind].
      unfold add_node, node_new. destruct (good_valid _ _ (ag_good _ _ HA) s' HIs) as [vm' Evm']. rewrite Evm'. cbn [bind].
      apply IH. intros b Hb. apply Hin. right. exact Hb. }
    unfold alpha_expand_tensor, alpha_expand_with.
    destruct (Hloop (n_exp n) (n_children n) st r ltac:(auto)) as (ch' & st1 & r1 & El). rewrite El. cbn [bind].
    assert (Hidx : n_idx n = i) by (eapply fo_idx; eassumption).
    assert (Hi1 : (i < length st1)%nat).
    { apply expand_loop_inv in El. destruct El as (kids & -> & _). rewrite app_length. lia. }
    unfold set_node. cbn [n_idx]. rewrite Hidx. destruct (Nat.ltb_spec i (length st1)); [|lia]. cbn [bind].
    assert (Ev : exists v, double_value {| shape := [1%nat]; data := firstn 1 (skipn (k * 1) (data (net_value nt x))) |} [0%nat] = Ok v).
    { eexists. apply (double_value_1 _ f0 _ 1); [reflexivity| |lia]. cbn [data]. rewrite firstn_length, skipn_length, Lv. lia. }
    destruct Ev as [v Ev]. rewrite Ev. cbn [bind].
    assert (HV : inv st) by (split; assumption).
    assert (Hex : exists n', alpha_expand_tensor prob n st r = Ok (n', set_nth st1 i (mkNode (n_state n) i (n_parent n) ch' (n_visits n) (n_value n) (n_policy n) (n_action n) []), r1)).
    { unfold alpha_expand_tensor, alpha_expand_with. rewrite El. cbn [bind]. unfold set_node. cbn [n_idx]. rewrite Hidx.
      destruct (Nat.ltb_spec i (length st1)); [|lia]. cbn [bind]. eauto. }
    destruct Hex as [n' Hex].
    destruct (expand_all G I HA roots st i n n _ r n' _ r1 HV En (same_shape_refl _ _) ltac:(auto) ltac:(auto) Hex) as (HV1 & HG1 & _).
    destruct (backprop_all G I roots _ i v HV1) as (st2 & Eb & _); [destruct HG1 as [HL _]; lia|]. rewrite Eb. cbn [bind]. eauto.
  Qed.

  Definition hits st (es : list (nat * nat)) (j : nat) : nat := length (filter (fun e => pathb G st (snd e) j) es).
  Lemma process_fold policy eval : forall es st r st' r', inv st -> (forall e, In e es -> (snd e < length st)%nat) ->
    mfold (par_process tsum policy eval) es (st, r) = Ok (st', r') ->
    inv st' /\ grows st st' /\ (counters st -> counters st')
    /\ (forall j n, nth_error st j = Some n -> exists n', nth_error st' j = Some n' /\ n_visits n' = more (hits st es j) (n_visits n)).
  Proof.
    induction es as [|[k i] es IH]; intros st r st' r' HV Hlt H.
    - injection H as <- <-. split; [exact HV|]. split; [apply grows_refl|]. split; [auto|]. intros j n En. exists n. auto.
    - cbn [mfold] in H. destruct (par_process tsum policy eval (st, r) (k, i)) as [[st1 r1]|] eqn:E1; cbn [bind] in H; [|discriminate].
      assert (Hi : (i < length st)%nat) by (apply (Hlt (k, i)); left; reflexivity).
      destruct (par_process_inv _ _ _ _ _ _ _ _ HV Hi E1) as (HV1 & HG1 & HC1 & HN1).
      assert (Hlt1 : forall e, In e es -> (snd e < length st)%nat) by (intros e He; apply Hlt; right; exact He).
      destruct (IH st1 r1 st' r' HV1) as (HV2 & HG2 & HC2 & HN2); [intros e He; specialize (Hlt1 e He); destruct HG1; lia|exact H|].
      split; [exact HV2|]. split; [eapply grows_trans; eassumption|]. split; [auto|].
      intros j n En. destruct (HN1 j n En) as (n1 & En1 & Hv1). destruct (HN2 j n1 En1) as (n2 & En2 & Hv2).
      exists n2. split; [exact En2|]. rewrite Hv2, Hv1.
      assert (Hh : hits st1 es j = hits st es j).
      { unfold hits. clear IH H Hlt HN2 HG2 HC2 HV2 E1 HN1 Hv2. induction es as [|e es IHe]; [reflexivity|]. cbn [filter].
        rewrite (pathb_grows st st1) by (try assumption; apply Hlt1; left; reflexivity).
        assert (Hl : length (filter (fun e => pathb G st1 (snd e) j) es) = length (filter (fun e => pathb G st (snd e) j) es))
          by (apply IHe; intros e' He'; apply Hlt1; right; exact He').
        destruct (pathb G st (snd e) j); cbn [length]; congruence. }
      rewrite Hh, <- more_add. f_equal. unfold hits. cbn [filter snd]. destruct (pathb G st i j); cbn [length]; lia.
  Qed.
  Lemma process_fold_ok x m : net_ok G nt -> (exists sh, shape x = m :: sh) ->
    forall es st r, inv st -> (forall e, In e es -> (fst e < m)%nat /\ (snd e < length st)%nat) ->
    exists st' r', mfold (par_process tsum (net_policy nt x) (net_value nt x)) es (st, r) = Ok (st', r').
  Proof.
    intros HNet Hsh. induction es as [|[k i] es IH]; intros st r HV H; cbn [mfold]; [eauto|].
    destruct (H (k, i) (or_introl eq_refl)) as [Hk Hi]. cbn [fst snd] in *.
    destruct (par_process_ok k i st r x m HV Hi HNet Hsh Hk) as (st1 & r1 & E1). rewrite E1. cbn [bind].
    destruct (par_process_inv _ _ _ _ _ _ _ _ HV Hi E1) as (HV1 & [HL _] & _).
    apply IH; [exact HV1|]. intros e He. destruct (H e (or_intror He)). lia.
  Qed.

  (** ** one iteration *)
  Definition sel_ok st (sel : list nat) : Prop := length sel = length roots /\ forall i, In i sel -> (i < length st)%nat.
  Definition b2n (b : bool) : nat := if b then 1%nat else 0%nat.
  (** the entries submitted to the network *)
  Definition slot st (sel : list nat) (g : nat) : nat :=
    match pick G cfg st g with Some (i, None) => i | _ => nth g sel 0%nat end.
  Definition is_some {A} (o : option A) : bool := match o with Some _ => true | None => false end.

  Lemma par_iter_spec order st sel : inv st -> sel_ok st sel -> Permutation order (seq 0 (length roots)) ->
    exists st1 sel1 flag, mfold (par_select cfg) order (st, sel, false) = Ok (st1, sel1, flag)
      /\ inv st1 /\ grows st st1 /\ (counters st -> counters st1) /\ shape_eq G st st1
      /\ sel_ok st1 sel1 /\ sel1 = map (slot st sel) (seq 0 (length roots))
      /\ flag = existsb (unfinished G cfg st) (seq 0 (length roots))
      /\ (forall j n g, nth_error st j = Some n -> owner roots st j g ->
            nth_error st1 j = Some (bump_opt G n (eff G cfg st g j))).
  Proof.
    intros HV [HL Hsel] HP.
    assert (Hc : NoDup order /\ (forall g, In g order <-> (g < length roots)%nat)).
    { split; [eapply Permutation_NoDup; [apply Permutation_sym; exact HP|apply seq_NoDup]|].
      intros g. split; intros H; [apply (Permutation_in _ HP) in H; apply in_seq in H; lia|].
      apply (Permutation_in _ (Permutation_sym HP)). apply in_seq. lia. }
    destruct Hc as [HN HM].
    destruct (select_fold G I HA cfg roots order st sel false HV HN ltac:(intros g Hg; apply HM; exact Hg) HL) as (st1 & sel1 & flag & E & HS & HNd & HL1 & HSel & HFl).
    assert (Hmem : forall g, (g < length roots)%nat -> mem g order = true) by (intros g Hg; apply mem_spec, HM; exact Hg).
    exists st1, sel1, flag. split; [exact E|].
    assert (Hown : forall j n, nth_error st j = Some n -> exists g, owner roots st j g)
      by (intros j n En; apply owner_ex; [apply HV|eapply nth_error_lt; exact En]).
    (* the bump of each node, as a function *)
    assert (HB : exists b : nat -> option f32, (forall j n, nth_error st j = Some n -> nth_error st1 j = Some (match b j with Some v => bump n v | None => n end))).
    { exists (fun j => match find (fun g => pathb G st j g) (seq 0 (length roots)) with Some g => eff G cfg st g j | None => None end).
      intros j n En. destruct (Hown j n En) as [g Hg]. pose proof (nth_error_lt _ _ _ _ En) as Hj.
      pose proof (forest_parents_down _ _ _ (proj1 HV)) as HPd.
      destruct (find (fun g => pathb G st j g) (seq 0 (length roots))) as [g'|] eqn:Ef.
      - apply find_some in Ef. destruct Ef as [Hin Hpb]. apply in_seq in Hin. apply pathb_spec in Hpb; [|exact HPd|exact Hj].
        assert (g' = g) as -> by (eapply owner_unique; [apply HV| |exact Hg]; split; [lia|exact Hpb]).
        rewrite (HNd j n g En Hg), Hmem by apply Hg. reflexivity.
      - exfalso. destruct Hg as [Hg1 Hg2]. pose proof (find_none _ _ Ef g ltac:(apply in_seq; lia)) as Hf. cbv beta in Hf.
        rewrite (proj2 (pathb_spec G st j g HPd Hj) Hg2) in Hf. discriminate Hf. }
    destruct HB as [b HB].
    assert (HV1 : inv st1) by (eapply inv_shape; eassumption).
    split; [exact HV1|]. split; [eapply bumped_grows; [exact HS|exact HB]|]. split; [eapply bumped_counters; [exact HS|exact HB]|]. split; [exact HS|].
    assert (Hsl : sel1 = map (slot st sel) (seq 0 (length roots))).
    { apply nth_error_ext. intros g. rewrite HSel, nth_error_map. destruct (Nat.lt_ge_cases g (length roots)) as [Hg|Hg].
      - rewrite (nth_error_nth' (seq 0 (length roots)) 0%nat) by (rewrite seq_length; exact Hg). rewrite seq_nth by exact Hg. cbn [option_map].
        unfold slot. cbn [Nat.add]. rewrite Hmem by exact Hg.
        destruct (pick G cfg st g) as [[i [v|]]|]; try reflexivity; apply nth_error_nth'; lia.
      - assert (Hn : nth_error (seq 0 (length roots)) g = None) by (apply nth_error_None; rewrite seq_length; exact Hg). rewrite Hn. cbn [option_map].
        assert (Hm : mem g order = false) by (apply mem_false; rewrite HM; lia). rewrite Hm.
        assert (Hs : nth_error sel g = None) by (apply nth_error_None; lia). rewrite Hs.
        destruct (pick G cfg st g) as [[i [v|]]|]; reflexivity. }
    split; [|split; [exact Hsl|split]].
    - split; [exact HL1|]. intros i Hi. rewrite Hsl in Hi. apply in_map_iff in Hi. destruct Hi as (g & <- & Hg). apply in_seq in Hg.
      rewrite <- (shape_eq_length _ _ _ HS). unfold slot.
      destruct (pick_spec G I HA cfg roots st g HV ltac:(lia)) as (i & n & o & Ep & _ & En & _). rewrite Ep.
      destruct o; [apply Hsel, nth_In; lia|eapply nth_error_lt; exact En].
    - rewrite HFl. cbn [orb]. apply bool_iff_eq. rewrite !existsb_exists. split; intros (g & Hg & Hu); exists g; (split; [|exact Hu]).
      + apply in_seq. apply HM in Hg. lia.
      + apply HM. apply in_seq in Hg. lia.
    - intros j n g En Hg. rewrite (HNd j n g En Hg), Hmem by apply Hg. reflexivity.
  Qed.

  Lemma par_iter_inv order st sel r st' sel' r' : inv st -> sel_ok st sel -> Permutation order (seq 0 (length roots)) ->
    par_iter tsum nt cfg order (st, sel, r) = Ok (st', sel', r') ->
    inv st' /\ grows st st' /\ (counters st -> counters st') /\ sel_ok st' sel'
    /\ sel' = map (slot st sel) (seq 0 (length roots))
    /\ (forall j n g, nth_error st j = Some n -> owner roots st j g -> exists n', nth_error st' j = Some n'
          /\ n_visits n' = more (b2n (is_some (eff G cfg st g j))
              + (if existsb (unfinished G cfg st) (seq 0 (length roots))
                 then length (filter (fun h => pathb G st (slot st sel h) j) (seq 0 (length roots))) else 0)) (n_visits n)).
  Proof.
    intros HV Hsel HP H. destruct (par_iter_spec order st sel HV Hsel HP) as (st1 & sel1 & flag & E & HV1 & HG1 & HC1 & HS & Hsel1 & Hsl & Hfl & HN).
    unfold par_iter in H. rewrite E in H. cbn [bind] in H.
    assert (Hvis : forall j n g, nth_error st j = Some n -> owner roots st j g -> exists n1, nth_error st1 j = Some n1 /\ n_visits n1 = more (b2n (is_some (eff G cfg st g j))) (n_visits n)).
    { intros j n g En Hg. rewrite (HN j n g En Hg). eexists. split; [reflexivity|]. destruct (eff G cfg st g j); reflexivity. }
    rewrite <- Hfl. destruct flag.
    - destruct (mmap (fun i => n <- get_node st1 i;; Ok (n_state n)) sel1) as [ss|]; cbn [bind] in H; [|discriminate].
      destruct (batch ss) as [x|]; cbn [bind] in H; [|discriminate].
      destruct (mfold (par_process tsum (net_policy nt x) (net_value nt x)) (combine (seq 0 (length sel1)) sel1) (st1, r)) as [[st2 r2]|] eqn:Ep; cbn [bind] in H; [|discriminate].
      injection H as <- <- <-.
      destruct (process_fold (net_policy nt x) (net_value nt x) (combine (seq 0 (length sel1)) sel1) st1 r st2 r2 HV1) as (HV2 & HG2 & HC2 & HN2); [|exact Ep|].
      { intros [k i] Hin. apply in_combine_r in Hin. cbn. apply Hsel1. exact Hin. }
      split; [exact HV2|]. split; [eapply grows_trans; eassumption|]. split; [auto|].
      split; [split; [apply Hsel1|]; intros i Hi; destruct HG2 as [HL2 _]; destruct Hsel1 as [_ Hs]; specialize (Hs i Hi); lia|].
      split; [exact Hsl|]. intros j n g En Hg. destruct (Hvis j n g En Hg) as (n1 & En1 & Hv1). destruct (HN2 j n1 En1) as (n2 & En2 & Hv2).
      exists n2. split; [exact En2|]. rewrite Hv2, Hv1, <- more_add. f_equal. rewrite Nat.add_comm. f_equal.
      unfold hits.
      assert (Hf : forall (f : nat -> bool) l k0, length (filter (fun e : nat * nat => f (snd e)) (combine (seq k0 (length l)) l)) = length (filter f l)).
      { intros f l. induction l as [|y l IHl]; intros k0; cbn [length seq combine filter snd]; [reflexivity|]. destruct (f y); cbn [length]; rewrite IHl; reflexivity. }
      rewrite (Hf (fun i => pathb G st1 i j)). rewrite Hsl. clear Hf.
      assert (Hm : forall (f : nat -> bool) (h : nat -> nat) l, length (filter f (map h l)) = length (filter (fun x => f (h x)) l)).
      { intros f h l. induction l as [|y l IHl]; cbn; [reflexivity|]. destruct (f (h y)); cbn; rewrite IHl; reflexivity. }
      rewrite Hm. f_equal. apply filter_ext_in. intros h Hh. apply pathb_shape; [eapply forest_parents_down; apply HV|exact HS|].
      rewrite (shape_eq_length _ _ _ HS). apply Hsel1. rewrite Hsl. apply in_map. exact Hh.
    - injection H as <- <- <-. split; [exact HV1|]. split; [exact HG1|]. split; [exact HC1|]. split; [exact Hsel1|]. split; [exact Hsl|].
      intros j n g En Hg. rewrite Nat.add_0_r. apply Hvis; assumption.
  Qed.
  Lemma par_iter_ok order st sel r : net_ok G nt -> inv st -> sel_ok st sel -> Permutation order (seq 0 (length roots)) ->
    exists st' sel' r', par_iter tsum nt cfg order (st, sel, r) = Ok (st', sel', r').
  Proof.
    intros HNet HV Hsel HP. destruct (par_iter_spec order st sel HV Hsel HP) as (st1 & sel1 & flag & E & HV1 & HG1 & HC1 & HS & Hsel1 & Hsl & Hfl & HN).
    unfold par_iter. rewrite E. cbn [bind]. destruct flag; [|eauto].
    destruct Hsel1 as [HL1 Hs1].
    destruct (mmap_all_ok _ _ (fun i => n <- get_node st1 i;; Ok (n_state n)) sel1) as [ss Ess].
    { intros i Hi. destruct (nth_error_ex _ st1 i (Hs1 i Hi)) as [n En]. unfold get_node. rewrite En. cbn. eauto. }
    rewrite Ess. cbn [bind]. pose proof (mmap_ok_in _ _ _ _ _ Ess) as HF2.
    destruct (ag_tensor _ _ HA) as [sh Hsh].
    destruct (batch_ok G sh ss) as (x & Ex & Hx).
    - intros ->. assert (Hl0 : length roots = 0%nat) by (rewrite <- HL1, (forall2_len _ _ _ _ _ HF2); reflexivity).
      rewrite Hl0 in Hfl. discriminate.
    - intros s Hs. destruct (forall2_in_r _ _ _ _ _ _ HF2 Hs) as (i & Hi & Ei). unfold get_node in Ei.
      destruct (nth_error st1 i) as [n|] eqn:En; cbn in Ei; [|discriminate]. injection Ei as <-. apply Hsh. eapply all_I_nth; [apply HV1|exact En].
    - rewrite Ex. cbn [bind].
      destruct (process_fold_ok x (length ss) HNet ltac:(eauto) (combine (seq 0 (length sel1)) sel1) st1 r HV1) as (st2 & r2 & E2).
      { intros [k i] Hin. cbn. split; [apply in_combine_l in Hin; apply in_seq in Hin; rewrite <- (forall2_len _ _ _ _ _ HF2); lia|].
        apply in_combine_r in Hin. apply Hs1. exact Hin. }
      rewrite E2. cbn [bind]. eauto.
  Qed.
  Lemma par_iter_order o1 o2 st sel r : inv st -> sel_ok st sel ->
    Permutation o1 (seq 0 (length roots)) -> Permutation o2 (seq 0 (length roots)) ->
    par_iter tsum nt cfg o1 (st, sel, r) = par_iter tsum nt cfg o2 (st, sel, r).
  Proof.
    intros HV [HL _] P1 P2. unfold par_iter. rewrite (select_order G I HA cfg roots o1 o2 st sel HV HL P1 P2). reflexivity.
  Qed.
  Lemma par_loop_order o1 o2 : Permutation o1 (seq 0 (length roots)) -> Permutation o2 (seq 0 (length roots)) ->
    forall k st sel r, inv st -> sel_ok st sel -> par_loop tsum nt cfg k o1 (st, sel, r) = par_loop tsum nt cfg k o2 (st, sel, r).
  Proof.
    intros P1 P2. induction k as [|k IH]; intros st sel r HV Hs; [reflexivity|]. cbn [par_loop].
    rewrite (par_iter_order o1 o2 st sel r HV Hs P1 P2).
    destruct (par_iter tsum nt cfg o2 (st, sel, r)) as [[[st' sel'] r']|] eqn:E; cbn [bind]; [|reflexivity].
    destruct (par_iter_inv _ _ _ _ _ _ _ HV Hs P2 E) as (HV' & _ & _ & Hs' & _). apply IH; assumption.
  Qed.
End B.
