(** * AlphaProof: forests, selection and expansion of the network-guided search. *)
From Verif Require Import Base BaseFacts F32 F32Facts Tensor TensorFacts GameModel McModel McSpec AlphaModel AlphaSpec McProof McProof2.
From Coq Require Import Arith Permutation.
Require Import ZifyBool ZifyNat.

Section F.
  Variable G : Game.
  Implicit Types (st : store G) (n : node G).

  (** ** forests *)
  Lemma forest_parents_down roots st : forest roots st -> parents_down st.
  Proof.
    intros HF i n p E Ep. destruct (Nat.lt_ge_cases i (length roots)) as [Hi|Hi].
    - destruct (nth_error_ex _ roots i Hi) as [s Es]. destruct (fo_roots _ _ _ HF _ _ Es) as (n0 & E0 & Hp0 & _).
      rewrite E in E0. injection E0 as ->. congruence.
    - destruct (fo_parent _ _ _ HF _ _ E Hi) as (p' & pn & a & vm & r & r' & Hp & Hlt & _).
      rewrite Ep in Hp. injection Hp as ->. exact Hlt.
  Qed.
  Lemma forest_root_lt roots st g : forest roots st -> (g < length roots)%nat ->
    exists n s, nth_error st g = Some n /\ nth_error roots g = Some s /\ n_parent n = None /\ n_state n = s.
  Proof.
    intros HF Hg. destruct (nth_error_ex _ roots g Hg) as [s Es]. destruct (fo_roots _ _ _ HF _ _ Es) as (n0 & E0 & Hp0 & _ & Hs).
    eauto 10.
  Qed.
  Lemma forest_child_gt roots st i n c : forest roots st -> nth_error st i = Some n -> In c (n_children n) ->
    (i < c < length st)%nat /\ exists cn, nth_error st c = Some cn /\ n_parent cn = Some i /\ n_idx cn = c.
  Proof.
    intros HT E Hin. destruct (fo_children _ _ _ HT _ _ _ E Hin) as (cn & Ec & Hp).
    pose proof (forest_parents_down _ _ HT _ _ _ Ec Hp). pose proof (nth_error_lt _ _ _ _ Ec).
    split; [lia|]. exists cn. split; [exact Ec|]. split; [exact Hp|]. eapply fo_idx; eassumption.
  Qed.
  Lemma owner_ex roots st : forest roots st -> forall i, (i < length st)%nat -> exists g, owner roots st i g.
  Proof.
    intros HF i. induction i as [i IH] using lt_wf_ind. intros Hi.
    destruct (nth_error_ex _ st i Hi) as [n E]. destruct (Nat.lt_ge_cases i (length roots)) as [Hr|Hr].
    - exists i. split; [exact Hr|]. eapply path_here. exact E.
    - destruct (fo_parent _ _ _ HF _ _ E Hr) as (p & pn & a & vm & r & r' & Hp & Hlt & Ep & _).
      destruct (IH p Hlt) as (g & Hg & Hpath); [eapply nth_error_lt; exact Ep|].
      exists g. split; [exact Hg|]. eapply path_up; eassumption.
  Qed.
  Lemma on_path_root_unique st i g g' n n' : on_path st i g -> on_path st i g' ->
    nth_error st g = Some n -> nth_error st g' = Some n' -> n_parent n = None -> n_parent n' = None -> g = g'.
  Proof.
    intros H. revert g'. induction H as [i m E|i m p j E Ep Hp IH]; intros g' H' En En' Hn Hn'.
    - inversion H' as [? ? E1|? ? p' ? E1 Ep' Hp']; subst; [reflexivity|]. congruence.
    - inversion H' as [? ? E1|? ? p' ? E1 Ep' Hp']; subst; [congruence|].
      rewrite E in E1. injection E1 as <-. rewrite Ep in Ep'. injection Ep' as <-. apply IH; assumption.
  Qed.
  Lemma owner_unique roots st i g g' : forest roots st -> owner roots st i g -> owner roots st i g' -> g = g'.
  Proof.
    intros HF [Hg H] [Hg' H'].
    destruct (forest_root_lt _ _ _ HF Hg) as (n & s & E & _ & Hp & _).
    destruct (forest_root_lt _ _ _ HF Hg') as (n' & s' & E' & _ & Hp' & _).
    eapply on_path_root_unique; eassumption.
  Qed.
  Lemma on_path_trans st i j k : on_path st i j -> on_path st j k -> on_path st i k.
  Proof. induction 1 as [i n E|i n p j E Ep Hp IH]; intros H; [exact H|]. eapply path_up; [exact E|exact Ep|]. auto. Qed.
  Lemma owner_up roots st i j g : forest roots st -> owner roots st i g -> on_path st i j -> owner roots st j g.
  Proof.
    intros HF Ho Hp. assert (Hj : (j < length st)%nat) by (eapply on_path_lt; [eapply forest_parents_down; exact HF|exact Hp]).
    destruct (owner_ex _ _ HF j Hj) as (g' & Hg' & Hp'). assert (g' = g) as ->; [|split; assumption].
    eapply owner_unique; [exact HF| |exact Ho]. split; [exact Hg'|]. eapply on_path_trans; eassumption.
  Qed.
  Lemma owner_shape roots st st' i g : shape_eq G st st' -> owner roots st i g -> owner roots st' i g.
  Proof. intros HS [H1 H2]. split; [exact H1|]. eapply on_path_shape; eassumption. Qed.
  Lemma owner_root roots st g : forest roots st -> (g < length roots)%nat -> owner roots st g g.
  Proof. intros HF Hg. destruct (forest_root_lt _ _ _ HF Hg) as (n & s & E & _). split; [exact Hg|]. eapply path_here. exact E. Qed.

  Lemma forest_shape roots st st' : shape_eq G st st' -> forest roots st -> forest roots st'.
  Proof.
    intros HS HT. pose proof (shape_eq_sym _ _ _ HS) as HS'.
    constructor.
    - intros i s Es. destruct (fo_roots _ _ _ HT _ _ Es) as (n & E & H1 & H2 & H3). destruct (shape_eq_nth _ _ _ _ _ HS E) as (n' & E' & Hs).
      exists n'. unfold same_shape in Hs. intuition congruence.
    - intros i n' E'. destruct (shape_eq_nth _ _ _ _ _ HS' E') as (n & E & Hs). pose proof (fo_idx _ _ _ HT _ _ E).
      unfold same_shape in Hs. intuition congruence.
    - intros i n' E' Hi. destruct (shape_eq_nth _ _ _ _ _ HS' E') as (n & E & Hs).
      destruct (fo_parent _ _ _ HT _ _ E Hi) as (p & pn & a & vm & r & r' & Hp & Hlt & Epn & Hc & Ha & Hv & Hin & Hap).
      destruct (shape_eq_nth _ _ _ _ _ HS Epn) as (pn' & Epn' & Hs').
      exists p, pn', a, vm, r, r'. unfold same_shape in Hs, Hs'.
      destruct Hs as (S1 & S2 & S3 & S4 & S5 & S6 & S7), Hs' as (T1 & T2 & T3 & T4 & T5 & T6 & T7).
      rewrite <- T1, <- T4, S3, S6, S1. auto 10.
    - intros i n' c E' Hc. destruct (shape_eq_nth _ _ _ _ _ HS' E') as (n & E & Hs).
      assert (Hc' : In c (n_children n)) by (unfold same_shape in Hs; intuition congruence).
      destruct (fo_children _ _ _ HT _ _ _ E Hc') as (cn & Ec & Hp). destruct (shape_eq_nth _ _ _ _ _ HS Ec) as (cn' & Ec' & Hs'').
      exists cn'. unfold same_shape in Hs''. intuition congruence.
    - intros i n' E'. destruct (shape_eq_nth _ _ _ _ _ HS' E') as (n & E & Hs). pose proof (fo_nodup _ _ _ HT _ _ E).
      unfold same_shape in Hs. intuition congruence.
    - intros i n' E'. destruct (shape_eq_nth _ _ _ _ _ HS' E') as (n & E & Hs).
      destruct (fo_moves _ _ _ HT _ _ E) as (vm & Hv & Hor).
      exists vm. unfold same_shape in Hs. destruct Hs as (S1 & S2 & S3 & S4 & S5 & S6 & S7).
      rewrite S1, S4, S7. split; [exact Hv|]. destruct Hor as [H|[He HF]]; [left; exact H|right]. split; [exact He|].
      clear -HF HS. induction HF as [|c a l l' (cn & Ec & Ha) HF IH]; constructor; [|exact IH].
      destruct (shape_eq_nth _ _ _ _ _ HS Ec) as (cn' & Ec' & Hs'). exists cn'. unfold same_shape in Hs'. intuition congruence.
  Qed.

  (** ** expansion *)
  (** the child for move [a] *)
  Definition kid_of (prior : Z -> res f32) n (k : nat) (a : Mv G) (m : node G) : Prop :=
    exists code v vm ra rb, g_encode G (n_state n) a = Ok code /\ prior code = Ok v
      /\ g_apply G (n_state n) a ra = Ok (n_state m, rb) /\ g_valid G (n_state m) = Ok vm
      /\ m = mkNode (n_state m) k (Some (n_idx n)) [] f0 f0 v (Some a) vm.
  Definition expanded n (ch : list nat) : node G :=
    mkNode (n_state n) (n_idx n) (n_parent n) ch (n_visits n) (n_value n) (n_policy n) (n_action n) [].

  Lemma expand_loop_inv prior n acts : forall ch st r ch' st' r', alpha_expand_loop prior n acts ch st r = Ok (ch', st', r') ->
    exists kids, st' = st ++ kids /\ ch' = ch ++ seq (length st) (length acts) /\ length kids = length acts
      /\ forall k a m, nth_error acts k = Some a -> nth_error kids k = Some m -> kid_of prior n (length st + k) a m.
  Proof.
    induction acts as [|a acts IH]; intros ch st r ch' st' r' H; cbn [alpha_expand_loop] in H.
    - injection H as <- <- <-. exists []. rewrite !app_nil_r. repeat split. intros [|k] a m E; discriminate.
    - destruct (g_encode G (n_state n) a) as [code|] eqn:Ec; cbn [bind] in H; [|discriminate].
      destruct (prior code) as [v|] eqn:Ev; cbn [bind] in H; [|discriminate].
      destruct (g_apply G (n_state n) a r) as [[s' r1]|] eqn:Ea; cbn [bind] in H; [|discriminate].
      unfold add_node, node_new in H. destruct (g_valid G s') as [vm|] eqn:Evm; cbn [bind] in H; [|discriminate].
      apply IH in H. destruct H as (kids & -> & -> & HL & HK).
      rewrite app_length in *. cbn [length] in *.
      exists (mkNode s' (length st) (Some (n_idx n)) [] f0 f0 v (Some a) vm :: kids).
      split; [rewrite <- app_assoc; reflexivity|]. split; [rewrite <- app_assoc; cbn [app]; rewrite Nat.add_1_r; reflexivity|].
      split; [cbn; lia|]. intros [|k] b m E1 E2; cbn [nth_error] in E1, E2.
      + injection E1 as <-. injection E2 as <-. rewrite Nat.add_0_r. exists code, v, vm, r, r1. auto 10.
      + replace (length st + S k)%nat with (length st + 1 + k)%nat by lia. eapply HK; eassumption.
  Qed.
  Lemma expand_inv_alpha prior n st r n' st' r' : alpha_expand_with prior n st r = Ok (n', st', r') -> (n_idx n < length st)%nat ->
    exists kids, n' = expanded n (n_children n ++ seq (length st) (length (n_exp n)))
      /\ st' = set_nth st (n_idx n) n' ++ kids /\ length kids = length (n_exp n)
      /\ forall k a m, nth_error (n_exp n) k = Some a -> nth_error kids k = Some m -> kid_of prior n (length st + k) a m.
  Proof.
    intros H Hlt. unfold alpha_expand_with in H.
    destruct (alpha_expand_loop prior n (n_exp n) (n_children n) st r) as [[[ch st1] r1]|] eqn:El; cbn [bind] in H; [|discriminate].
    apply expand_loop_inv in El. destruct El as (kids & -> & -> & HL & HK).
    unfold set_node in H. cbn [n_idx] in H. rewrite app_length in H.
    destruct (Nat.ltb_spec (n_idx n) (length st + length kids)); [|lia]. cbn [bind] in H. injection H as <- <- <-.
    exists kids. split; [reflexivity|]. split; [|auto].
    fold (expanded n (n_children n ++ seq (length st) (length (n_exp n)))).
    generalize (expanded n (n_children n ++ seq (length st) (length (n_exp n)))) as x. intros x.
    clear -Hlt. revert Hlt. generalize (n_idx n) as i. induction st as [|y st IH]; intros [|i] Hlt; cbn in *; try lia; [reflexivity|].
    f_equal. apply IH. lia.
  Qed.

  Section Expanded.
    Variables (roots : list (St G)) (st : store G) (i : nat) (n0 n : node G) (prior : Z -> res f32) (kids : list (node G)).
    Hypothesis HF : forest roots st.
    Hypothesis E0 : nth_error st i = Some n0.
    Hypothesis HS : same_shape G n0 n.
    Hypothesis HL : length kids = length (n_exp n).
    Hypothesis HK : forall k a m, nth_error (n_exp n) k = Some a -> nth_error kids k = Some m -> kid_of prior n (length st + k) a m.
    Let ch := n_children n ++ seq (length st) (length (n_exp n)).
    Let n' := expanded n ch.
    Let st' := set_nth st i n' ++ kids.

    Lemma al_idx : n_idx n = i.
    Proof. destruct HS as (_ & <- & _). eapply fo_idx; eassumption. Qed.
    Lemma al_i_lt : (i < length st)%nat.
    Proof. eapply nth_error_lt. exact E0. Qed.
    Lemma al_len : length st' = (length st + length (n_exp n))%nat.
    Proof. unfold st'. rewrite app_length, length_set_nth, HL. reflexivity. Qed.
    Lemma al_nth_i : nth_error st' i = Some n'.
    Proof. unfold st'. rewrite nth_error_app1 by (rewrite length_set_nth; apply al_i_lt). apply nth_error_set_same. apply al_i_lt. Qed.
    Lemma al_nth_old j : (j < length st)%nat -> j <> i -> nth_error st' j = nth_error st j.
    Proof. intros Hj Hne. unfold st'. rewrite nth_error_app1 by (rewrite length_set_nth; exact Hj). apply nth_error_set_other. auto. Qed.
    Lemma al_nth_new j m : nth_error st' j = Some m -> (length st <= j)%nat ->
      exists k a, j = (length st + k)%nat /\ nth_error (n_exp n) k = Some a /\ nth_error kids k = Some m /\ kid_of prior n j a m.
    Proof.
      intros E Hj. unfold st' in E. rewrite nth_error_app2 in E by (rewrite length_set_nth; exact Hj). rewrite length_set_nth in E.
      pose proof (nth_error_lt _ _ _ _ E) as Hk. rewrite HL in Hk. destruct (nth_error_ex _ (n_exp n) _ Hk) as [a Ea].
      exists (j - length st)%nat, a. split; [lia|]. split; [exact Ea|]. split; [exact E|].
      pose proof (HK _ _ _ Ea E) as H. replace (length st + (j - length st))%nat with j in H by lia. exact H.
    Qed.
    (** every old node keeps all but possibly its children and remaining moves *)
    Lemma al_old j m : nth_error st j = Some m -> exists m', nth_error st' j = Some m' /\ n_state m' = n_state m
      /\ n_parent m' = n_parent m /\ n_action m' = n_action m /\ n_idx m' = n_idx m /\ n_policy m' = n_policy m
      /\ (forall c, In c (n_children m) -> In c (n_children m')) /\ (j <> i -> m' = m).
    Proof.
      intros E. destruct (Nat.eq_dec j i) as [->|Hne].
      - rewrite E0 in E. injection E as <-. exists n'. destruct HS as (S1 & S2 & S3 & S4 & S5 & S6 & S7).
        split; [exact al_nth_i|]. cbn. repeat split; try (symmetry; assumption).
        + intros c Hc. unfold ch. rewrite <- S4. apply in_or_app. left. exact Hc.
        + congruence.
      - exists m. rewrite al_nth_old by (try assumption; eapply nth_error_lt; exact E). repeat split; auto.
    Qed.
    Lemma al_back j m' : nth_error st' j = Some m' -> (j < length st)%nat -> exists m, nth_error st j = Some m /\ n_state m' = n_state m
      /\ n_parent m' = n_parent m /\ n_action m' = n_action m /\ n_idx m' = n_idx m /\ (j <> i -> m' = m).
    Proof.
      intros E Hj. destruct (nth_error_ex _ st j Hj) as [m Em]. exists m. split; [exact Em|].
      destruct (al_old _ _ Em) as (m2 & E2 & H). rewrite E in E2. injection E2 as <-. intuition.
    Qed.
    Lemma al_kid_in_ch k : (k < length (n_exp n))%nat -> In (length st + k)%nat ch.
    Proof. intros Hk. unfold ch. apply in_or_app. right. apply in_seq. lia. Qed.
    Lemma al_forest : forest roots st'.
    Proof.
      destruct HS as (S1 & S2 & S3 & S4 & S5 & S6 & S7). pose proof al_idx as Hidx. pose proof al_i_lt as Hi.
      destruct (fo_moves _ _ _ HF _ _ E0) as (vm & Hv & Hor).
      constructor.
      - intros j s Es. destruct (fo_roots _ _ _ HF _ _ Es) as (m & Em & H1 & H2 & H3).
        destruct (al_old _ _ Em) as (m' & Em' & T1 & T2 & T3 & _). exists m'. intuition congruence.
      - intros j m E. destruct (Nat.lt_ge_cases j (length st)) as [Hj|Hj].
        + destruct (al_back _ _ E Hj) as (m0 & Em0 & _ & _ & _ & Hx & _). rewrite Hx. eapply fo_idx; eassumption.
        + destruct (al_nth_new _ _ E Hj) as (k & a & _ & _ & _ & code & v & vm' & ra & rb & _ & _ & _ & _ & ->). reflexivity.
      - intros j m E Hr. destruct (Nat.lt_ge_cases j (length st)) as [Hj|Hj].
        + destruct (al_back _ _ E Hj) as (m0 & Em0 & Hs & Hp & Ha & _).
          destruct (fo_parent _ _ _ HF _ _ Em0 Hr) as (p & pn & a & vm' & r & r' & K1 & K2 & K3 & K4 & K5 & K6 & K7 & K8).
          destruct (al_old _ _ K3) as (pn' & Epn' & T1 & T2 & T3 & T4 & T5 & T6 & T7).
          exists p, pn', a, vm', r, r'. rewrite Hs, Hp, Ha, T1. auto 10.
        + destruct (al_nth_new _ _ E Hj) as (k & a & Hk & Ea & Ek & code & v & vm' & ra & rb & _ & _ & Hap & Hvm' & Hm).
          destruct Hor as [[Hc0 He0]|[He0 _]]; [|rewrite <- S7, He0 in Ea; destruct k; discriminate].
          exists i, n', a, vm, ra, rb. rewrite Hm at 1. cbn [n_parent n_action]. rewrite Hidx.
          split; [reflexivity|]. split; [lia|]. split; [exact al_nth_i|]. split.
          { cbn. rewrite Hk. apply al_kid_in_ch. eapply nth_error_lt. exact Ea. }
          split; [rewrite Hm; reflexivity|]. cbn [n' expanded n_state]. rewrite <- S1. split; [exact Hv|].
          split; [rewrite <- He0, S7; eapply nth_error_In; exact Ea|]. rewrite S1. exact Hap.
      - intros j m c E Hc. destruct (Nat.lt_ge_cases j (length st)) as [Hj|Hj].
        + destruct (Nat.eq_dec j i) as [->|Hne].
          * rewrite al_nth_i in E. injection E as <-. cbn in Hc. unfold ch in Hc. apply in_app_or in Hc. destruct Hc as [Hc|Hc].
            -- rewrite <- S4 in Hc. destruct (fo_children _ _ _ HF _ _ _ E0 Hc) as (cn & Ecn & Hp).
               destruct (al_old _ _ Ecn) as (cn' & Ecn' & _ & Hp' & _). exists cn'. split; [exact Ecn'|congruence].
            -- apply in_seq in Hc. destruct (nth_error_ex _ st' c) as [cn Ecn]; [rewrite al_len; lia|].
               exists cn. split; [exact Ecn|]. destruct (al_nth_new _ _ Ecn ltac:(lia)) as (k & a & _ & _ & _ & code & v & vm' & ra & rb & _ & _ & _ & _ & ->).
               cbn. rewrite Hidx. reflexivity.
          * destruct (al_back _ _ E Hj) as (m0 & Em0 & _ & _ & _ & _ & Heq). rewrite (Heq Hne) in Hc.
            destruct (fo_children _ _ _ HF _ _ _ Em0 Hc) as (cn & Ecn & Hp).
            destruct (al_old _ _ Ecn) as (cn' & Ecn' & _ & Hp' & _). exists cn'. split; [exact Ecn'|congruence].
        + destruct (al_nth_new _ _ E Hj) as (k & a & _ & _ & _ & code & v & vm' & ra & rb & _ & _ & _ & _ & Hm). rewrite Hm in Hc. destruct Hc.
      - intros j m E. destruct (Nat.lt_ge_cases j (length st)) as [Hj|Hj].
        + destruct (Nat.eq_dec j i) as [->|Hne].
          * rewrite al_nth_i in E. injection E as <-. cbn. unfold ch.
            destruct Hor as [[Hc0 He0]|[He0 _]].
            -- rewrite <- S4, Hc0. cbn [app]. apply seq_NoDup.
            -- rewrite <- S7, He0. cbn [length seq]. rewrite app_nil_r, <- S4. eapply fo_nodup; eassumption.
          * destruct (al_back _ _ E Hj) as (m0 & Em0 & _ & _ & _ & _ & Heq). rewrite (Heq Hne). eapply fo_nodup; eassumption.
        + destruct (al_nth_new _ _ E Hj) as (k & a & _ & _ & _ & code & v & vm' & ra & rb & _ & _ & _ & _ & ->). constructor.
      - intros j m E. destruct (Nat.lt_ge_cases j (length st)) as [Hj|Hj].
        + assert (Hkeep : forall cs as_, Forall2 (fun c a => exists cn, nth_error st c = Some cn /\ n_action cn = Some a) cs as_ ->
                            Forall2 (fun c a => exists cn, nth_error st' c = Some cn /\ n_action cn = Some a) cs as_).
          { induction 1 as [|c a l l' (cn & Ecn & Ha) HF2 IH]; constructor; [|exact IH].
            destruct (al_old _ _ Ecn) as (cn' & Ecn' & _ & _ & Ha' & _). exists cn'. split; [exact Ecn'|congruence]. }
          destruct (Nat.eq_dec j i) as [->|Hne].
          * rewrite al_nth_i in E. injection E as <-. exists vm. split; [cbn; rewrite <- S1; exact Hv|]. right. split; [reflexivity|].
            cbn [n' expanded n_children]. unfold ch. destruct Hor as [[Hc0 He0]|[He0 HF2]].
            -- rewrite <- S4, Hc0. cbn [app]. rewrite <- He0, S7.
               assert (Hg : forall d acts, (forall k a, nth_error acts k = Some a -> exists cn, nth_error st' (d + k) = Some cn /\ n_action cn = Some a) ->
                          Forall2 (fun c a => exists cn, nth_error st' c = Some cn /\ n_action cn = Some a) (seq d (length acts)) acts).
               { intros d acts. revert d. induction acts as [|a acts IH]; intros d H; cbn [length seq]; constructor.
                 - specialize (H 0%nat a eq_refl). rewrite Nat.add_0_r in H. exact H.
                 - apply IH. intros k b Eb. specialize (H (S k) b Eb). rewrite Nat.add_succ_r in H. exact H. }
               apply Hg. intros k a Ea. pose proof (nth_error_lt _ _ _ _ Ea). destruct (nth_error_ex _ st' (length st + k)%nat) as [cn Ecn]; [rewrite al_len; lia|].
               exists cn. split; [exact Ecn|].
               destruct (al_nth_new _ _ Ecn ltac:(lia)) as (k' & a' & Hk' & Ea' & _ & code & v & vm' & ra & rb & _ & _ & _ & _ & ->).
               assert (k' = k) as -> by lia. cbn. congruence.
            -- rewrite <- S7, He0. cbn [length seq]. rewrite app_nil_r, <- S4. apply Hkeep. exact HF2.
          * destruct (al_back _ _ E Hj) as (m0 & Em0 & _ & _ & _ & _ & Heq). rewrite (Heq Hne).
            destruct (fo_moves _ _ _ HF _ _ Em0) as (vm0 & Hv0 & Hor0). exists vm0. split; [exact Hv0|].
            destruct Hor0 as [H|[He HF2]]; [left; exact H|right]. auto.
        + destruct (al_nth_new _ _ E Hj) as (k & a & _ & _ & _ & code & v & vm' & ra & rb & _ & _ & _ & Hvm' & Hm). exists vm'.
          split; [exact Hvm'|]. left. rewrite Hm. auto.
    Qed.
    Lemma al_path_old j k : (j < length st)%nat -> (on_path st' j k <-> on_path st j k).
    Proof.
      pose proof (forest_parents_down _ _ HF) as HP. intros Hj. split.
      - intros H. induction H as [j m E|j m p k E Ep Hp IH].
        + destruct (al_back _ _ E Hj) as (m0 & Em0 & _). eapply path_here. exact Em0.
        + destruct (al_back _ _ E Hj) as (m0 & Em0 & _ & Hpar & _). rewrite Ep in Hpar. symmetry in Hpar.
          pose proof (HP _ _ _ Em0 Hpar). eapply path_up; [exact Em0|exact Hpar|]. apply IH. lia.
      - intros H. induction H as [j m E|j m p k E Ep Hp IH].
        + destruct (al_old _ _ E) as (m0 & Em0 & _). eapply path_here. exact Em0.
        + destruct (al_old _ _ E) as (m0 & Em0 & _ & Hpar & _). rewrite Ep in Hpar.
          pose proof (HP _ _ _ E Ep). eapply path_up; [exact Em0|exact Hpar|]. apply IH. lia.
    Qed.
  End Expanded.

  (** ** selection *)
  Lemma forest_children roots st i n : forest roots st -> nth_error st i = Some n ->
    exists ch, children_of st n = Ok ch
      /\ Forall2 (fun c m => nth_error st c = Some m) (n_children n) ch
      /\ forall m, In m ch -> In (n_idx m) (n_children n) /\ nth_error st (n_idx m) = Some m /\ n_parent m = Some i.
  Proof.
    intros HT E. unfold children_of.
    destruct (mmap_all_ok _ _ (get_node st) (n_children n)) as [ch Ech].
    { intros c Hc. destruct (forest_child_gt _ _ _ _ _ HT E Hc) as (_ & cn & Ec & _). unfold get_node. rewrite Ec. eauto. }
    exists ch. split; [exact Ech|]. pose proof (mmap_ok_in _ _ _ _ _ Ech) as HF.
    assert (HF' : Forall2 (fun c m => nth_error st c = Some m) (n_children n) ch).
    { clear -HF. induction HF as [|c m l l' H HF IH]; constructor; [|exact IH].
      unfold get_node in H. destruct (nth_error st c); [injection H as <-; reflexivity|discriminate]. }
    split; [exact HF'|].
    intros m Hm. destruct (forall2_in_r _ _ _ _ _ _ HF' Hm) as (c & Hc & Ec).
    destruct (forest_child_gt _ _ _ _ _ HT E Hc) as (_ & cn & Ec' & Hp & Hx). rewrite Ec in Ec'. injection Ec' as <-.
    rewrite Hx. auto.
  Qed.
  Lemma select_alpha_spec roots st i n c : forest roots st -> nth_error st i = Some n -> n_children n <> [] ->
    exists m, select_alpha i st c = Ok m /\ In (n_idx m) (n_children n) /\ nth_error st (n_idx m) = Some m /\ n_parent m = Some i.
  Proof.
    intros HT E Hne. destruct (forest_children _ _ _ _ HT E) as (ch & Ech & HF & Hch).
    unfold select_alpha. unfold get_node at 1. rewrite E. cbn [bind]. rewrite Ech. cbn [bind].
    destruct (best_by_ok G (fun m => alpha_ucb m st c) ch) as (m & Eb & Hm).
    - intros m Hm. destruct (Hch m Hm) as (_ & _ & Hp). unfold alpha_ucb, get_node. rewrite Hp, E. cbn. eauto.
    - intros ->. inversion HF; congruence.
    - rewrite Eb. cbn [bind]. exists m. split; [reflexivity|]. destruct (Hch m Hm) as (H1 & H2 & H3). auto.
  Qed.
  Lemma alpha_select_fuel_spec roots st c : forest roots st -> forall fuel i, (i < length st)%nat -> (length st - i < fuel)%nat ->
    exists j n, alpha_select_fuel fuel i st c = Ok j /\ nth_error st j = Some n /\ n_children n = [] /\ on_path st j i.
  Proof.
    intros HT. induction fuel as [|fuel IH]; intros i Hi Hf; [lia|]. cbn [alpha_select_fuel].
    destruct (nth_error_ex _ st i Hi) as [n E]. unfold get_node. rewrite E. cbn [bind].
    destruct (n_children n) as [|c0 cs] eqn:Ec.
    - exists (n_idx n), n. rewrite (fo_idx _ _ _ HT _ _ E). repeat split; auto. eapply path_here. exact E.
    - destruct (select_alpha_spec roots st i n c HT E ltac:(congruence)) as (m & Em & Hin & Enm & Hpm). rewrite Em. cbn [bind].
      destruct (forest_child_gt _ _ _ _ _ HT E Hin) as [Hlt _].
      destruct (IH (n_idx m)) as (j & nj & Ej & Enj & Hj & Hp); [lia|lia|]. exists j, nj. repeat split; auto.
      eapply on_path_trans; [exact Hp|]. eapply path_up; [exact Enm|exact Hpm|]. eapply path_here. exact E.
  Qed.
  Lemma alpha_select_spec roots st c g : forest roots st -> (g < length roots)%nat ->
    exists j n, alpha_select_leaf_node g st c = Ok j /\ nth_error st j = Some n /\ n_children n = [] /\ owner roots st j g.
  Proof.
    intros HT Hg. destruct (forest_root_lt _ _ _ HT Hg) as (n0 & s & E0 & _). pose proof (nth_error_lt _ _ _ _ E0).
    destruct (alpha_select_fuel_spec roots st c HT (S (length st)) g) as (j & n & H1 & H2 & H3 & H4); [lia|lia|].
    exists j, n. repeat split; auto.
  Qed.
  (** selection in one tree does not look at the others *)
  Lemma alpha_select_fuel_local roots st st' c g : forest roots st -> (g < length roots)%nat ->
    (forall j, on_path st j g -> nth_error st' j = nth_error st j) ->
    forall fuel i, on_path st i g -> alpha_select_fuel fuel i st' c = alpha_select_fuel fuel i st c.
  Proof.
    intros HF Hg Hag. pose proof (forest_parents_down _ _ HF) as HP. induction fuel as [|fuel IH]; intros i Hi; [reflexivity|].
    cbn [alpha_select_fuel]. unfold get_node. rewrite (Hag i Hi). destruct (nth_error st i) as [n|] eqn:E; cbn [bind]; [|reflexivity].
    destruct (n_children n) as [|c0 cs] eqn:Ec; [reflexivity|].
    assert (Hch : forall d, In d (n_children n) -> on_path st d g).
    { intros d Hd. destruct (forest_child_gt _ _ _ _ _ HF E Hd) as (_ & cn & Ecn & Hp & _). eapply path_up; eassumption. }
    assert (Hsel : select_alpha i st' c = select_alpha i st c).
    { unfold select_alpha.
      assert (Hgn : get_node st' i = Ok n /\ get_node st i = Ok n) by (unfold get_node; rewrite (Hag i Hi), E; auto).
      destruct Hgn as [Hgn1 Hgn2]. rewrite Hgn1, Hgn2. cbn [bind].
      destruct (forest_children _ _ _ _ HF E) as (ch & Ech & HF2 & Hch2).
      assert (Ech' : children_of st' n = Ok ch).
      { rewrite <- Ech. unfold children_of. clear -Hch Hag. induction (n_children n) as [|d l IHl]; [reflexivity|].
        cbn [mmap]. assert (Hgn : get_node st' d = get_node st d) by (unfold get_node; rewrite (Hag d) by (apply Hch; left; reflexivity); reflexivity).
        rewrite Hgn, IHl by (intros e He; apply Hch; right; exact He). reflexivity. }
      rewrite Ech, Ech'. cbn [bind].
      assert (Hb : best_by (fun m => alpha_ucb m st' c) ch = best_by (fun m => alpha_ucb m st c) ch).
      { unfold best_by. f_equal. clear -Hch2 Hag Hi. induction ch as [|m l IHl]; [reflexivity|]. cbn [mmap].
        assert (Hm : alpha_ucb m st' c = alpha_ucb m st c).
        { destruct (Hch2 m (or_introl eq_refl)) as (_ & _ & Hp). unfold alpha_ucb, get_node. rewrite Hp, (Hag i Hi). reflexivity. }
        rewrite Hm, IHl by (intros e He; apply Hch2; right; exact He). reflexivity. }
      rewrite Hb. reflexivity. }
    rewrite Hsel. destruct (select_alpha_spec roots st i n c HF E ltac:(congruence)) as (m & Em & Hin & _).
    rewrite Em. cbn [bind]. apply IH. apply Hch. exact Hin.
  Qed.
  Lemma alpha_select_local roots st st' c g : forest roots st -> (g < length roots)%nat -> length st' = length st ->
    (forall j, on_path st j g -> nth_error st' j = nth_error st j) ->
    alpha_select_leaf_node g st' c = alpha_select_leaf_node g st c.
  Proof.
    intros HF Hg HL Hag. unfold alpha_select_leaf_node. rewrite HL. eapply alpha_select_fuel_local; try eassumption.
    destruct (forest_root_lt _ _ _ HF Hg) as (n & s & E & _). eapply path_here. exact E.
  Qed.
End F.
