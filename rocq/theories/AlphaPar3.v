(** * AlphaPar3: the start of the batched search and its visit counts. *)
From Verif Require Import Base BaseFacts F32 F32Facts Tensor TensorFacts GameModel McModel McSpec AlphaModel AlphaSpec McProof McProof2 AlphaProof AlphaPar AlphaPar2.
From Coq Require Import Arith Permutation.
Require Import ZifyBool ZifyNat.

Section C.
  Variable G : Game.
  Variable I : St G -> Prop.
  Hypothesis HA : alpha_game G I.
  Variable tsum : list f32 -> f32.
  Variable dirichlet : nat -> f32 -> rng -> list f32 * rng.
  Variable nt : net.
  Variable cfg : mcfg.
  Implicit Types (st : store G) (n : node G).
  Notation inv := (inv G I).
  Notation grows := (grows G).
  Notation counters := (counters G).

  (** ** the roots *)
  Definition root_node (s : St G) (i : nat) (vm : list (Mv G)) : node G := mkNode s i None [] f0 f0 f0 None vm.
  Lemma par_roots_from ss : forall st0 st, mfold (fun st s => '(_, st') <- add_node st s None None f0 ;; Ok st') ss st0 = Ok st ->
    length st = (length st0 + length ss)%nat
    /\ (forall i, (i < length st0)%nat -> nth_error st i = nth_error st0 i)
    /\ (forall i s, nth_error ss i = Some s -> exists vm, g_valid G s = Ok vm /\ nth_error st (length st0 + i) = Some (root_node s (length st0 + i) vm)).
  Proof.
    induction ss as [|s ss IH]; intros st0 st H.
    - injection H as <-. split; [cbn; lia|]. split; [reflexivity|]. intros [|i] s E; discriminate.
    - cbn [mfold] in H. unfold add_node at 1, node_new at 1 in H. destruct (g_valid G s) as [vm|] eqn:Ev; cbn [bind] in H; [|discriminate].
      destruct (IH _ _ H) as (HL & H1 & H2). rewrite app_length in HL, H1, H2. cbn [length] in *.
      split; [lia|]. split.
      + intros i Hi. rewrite H1 by lia. apply nth_error_app1. exact Hi.
      + intros [|i] s' E; cbn [nth_error] in E.
        * injection E as <-. exists vm. split; [exact Ev|]. rewrite Nat.add_0_r. rewrite H1 by lia.
          rewrite nth_error_app2 by lia. rewrite Nat.sub_diag. reflexivity.
        * destruct (H2 i s' E) as (vm' & Hv & En). exists vm'. split; [exact Hv|].
          replace (length st0 + S i)%nat with (length st0 + 1 + i)%nat by lia. exact En.
  Qed.
  Lemma par_roots_inv ss st : par_roots ss = Ok st -> length st = length ss
    /\ forall i s, nth_error ss i = Some s -> exists vm, g_valid G s = Ok vm /\ nth_error st i = Some (root_node s i vm).
  Proof. intros H. destruct (par_roots_from ss [] st H) as (HL & _ & H2). split; [exact HL|exact H2]. Qed.
  Lemma par_roots_ok ss : forall st0, (forall s, In s ss -> I s) ->
    exists st, mfold (fun st s => '(_, st') <- add_node st s None None f0 ;; Ok st') ss st0 = Ok st.
  Proof.
    induction ss as [|s ss IH]; intros st0 H; cbn [mfold]; [eauto|]. unfold add_node at 1, node_new at 1.
    destruct (good_valid _ _ (ag_good _ _ HA) s (H s (or_introl eq_refl))) as [vm Ev]. rewrite Ev. cbn [bind].
    apply IH. intros s' Hs'. apply H. right. exact Hs'.
  Qed.
  Lemma roots_node ss st : par_roots ss = Ok st -> forall i n, nth_error st i = Some n ->
    exists s vm, nth_error ss i = Some s /\ g_valid G s = Ok vm /\ n = root_node s i vm.
  Proof.
    intros H i n E. destruct (par_roots_inv ss st H) as [HL H2]. pose proof (nth_error_lt _ _ _ _ E) as Hi. rewrite HL in Hi.
    destruct (nth_error_ex _ ss i Hi) as [s Es]. destruct (H2 i s Es) as (vm & Hv & En). rewrite E in En. injection En as ->. eauto.
  Qed.
  Lemma roots_inv ss st : par_roots ss = Ok st -> (forall s, In s ss -> I s) -> inv ss st /\ counters st.
  Proof.
    intros H HI. pose proof (roots_node ss st H) as HN. destruct (par_roots_inv ss st H) as [HL H2].
    split; [split|].
    - constructor.
      + intros i s Es. destruct (H2 i s Es) as (vm & _ & En). eexists. split; [exact En|]. repeat split.
      + intros i n E. destruct (HN i n E) as (s & vm & _ & _ & ->). reflexivity.
      + intros i n E Hi. apply nth_error_lt in E. lia.
      + intros i n c E Hc. destruct (HN i n E) as (s & vm & _ & _ & ->). destruct Hc.
      + intros i n E. destruct (HN i n E) as (s & vm & _ & _ & ->). constructor.
      + intros i n E. destruct (HN i n E) as (s & vm & _ & Hv & ->). exists vm. split; [exact Hv|]. left. auto.
    - intros n Hn. apply In_nth_error in Hn. destruct Hn as [i E]. destruct (HN i n E) as (s & vm & Es & _ & ->). apply HI. eapply nth_error_In. exact Es.
    - intros i n E. destruct (HN i n E) as (s & vm & _ & _ & ->). apply counter0.
  Qed.

  (** ** expansion is total *)
  Lemma asize_Z : Z.of_nat (asize G) = g_actions G.
  Proof. pose proof (ag_actions _ _ HA). unfold asize in *. lia. Qed.
  Lemma exp_codes roots st i n : inv roots st -> nth_error st i = Some n ->
    forall a, In a (n_exp n) -> (exists vm, g_valid G (n_state n) = Ok vm /\ In a vm) /\ exists c, g_encode G (n_state n) a = Ok c /\ 0 <= c < Z.of_nat (asize G).
  Proof.
    intros [HF HI] En a Ha. destruct (fo_moves _ _ _ HF _ _ En) as (vm & Hv & Hor).
    assert (Hin : In a vm) by (destruct Hor as [[_ He]|[He _]]; [congruence|rewrite He in Ha; destruct Ha]).
    split; [eauto|]. destruct (ag_codec _ _ HA _ _ _ (all_I_nth _ _ _ _ _ HI En) Hv Hin) as (c & Ec & Hc & _).
    exists c. split; [exact Ec|]. rewrite asize_Z. exact Hc.
  Qed.
  Lemma expand_ok roots st i n0 n prior r : inv roots st -> nth_error st i = Some n0 -> same_shape G n0 n ->
    (forall c, 0 <= c < Z.of_nat (asize G) -> exists v, prior c = Ok v) ->
    exists n' st' r', alpha_expand_with prior n st r = Ok (n', st', r').
  Proof.
    intros HV E0 HS Hprior. pose proof (exp_codes _ _ _ _ HV E0) as Hexp. pose proof HS as (S1 & S2 & _ & _ & _ & _ & S7). rewrite S1, S7 in Hexp.
    assert (HIn : I (n_state n)) by (rewrite <- S1; eapply all_I_nth; [apply HV|exact E0]).
    assert (Hloop : forall acts ch st0 r0, (forall a, In a acts -> In a (n_exp n)) ->
      exists ch' st' r', alpha_expand_loop prior n acts ch st0 r0 = Ok (ch', st', r')).
    { induction acts as [|a acts IH]; intros ch st0 r0 Hin; cbn [alpha_expand_loop]; [eauto|].
      destruct (Hexp a (Hin a (or_introl eq_refl))) as [(vm & Hv & Hm) (c & Ec & Hc)]. rewrite Ec. cbn [bind].
      destruct (Hprior c Hc) as [v Ev]. rewrite Ev. cbn [bind].
      destruct (good_apply _ _ (ag_good _ _ HA) _ _ _ r0 HIn Hv Hm) as (s' & r' & Eap & HIs). rewrite Eap. cbn [bind].
      unfold add_node, node_new. destruct (good_valid _ _ (ag_good _ _ HA) s' HIs) as [vm' Evm']. rewrite Evm'. cbn [bind].
      apply IH. intros b Hb. apply Hin. right. exact Hb. }
    unfold alpha_expand_with. destruct (Hloop (n_exp n) (n_children n) st r ltac:(auto)) as (ch' & st1 & r1 & El). rewrite El. cbn [bind].
    assert (Hidx : n_idx n = i) by (rewrite <- S2; eapply fo_idx; [apply HV|exact E0]).
    assert (Hi1 : (i < length st1)%nat).
    { apply expand_loop_inv in El. destruct El as (kids & -> & _). rewrite app_length. apply nth_error_lt in E0. lia. }
    unfold set_node. cbn [n_idx]. rewrite Hidx. destruct (Nat.ltb_spec i (length st1)); [|lia]. cbn [bind]. eauto.
  Qed.

  (** ** expanding the roots *)
  Definition rooted st (g : nat) : Prop := exists n, nth_error st g = Some n /\ n_visits n = f1 /\ n_exp n = [] /\ n_value n = f0.
  Lemma expand_roots_inv ss prob : forall l st r st' r', inv ss st -> counters st -> NoDup l -> (forall i, In i l -> (i < length ss)%nat) ->
    (forall i n, In i l -> nth_error st i = Some n -> n_value n = f0) ->
    mfold (par_expand_root prob) l (st, r) = Ok (st', r') ->
    inv ss st' /\ counters st' /\ grows st st' /\ (forall i, In i l -> rooted st' i)
    /\ (forall i, ~ In i l -> (i < length st)%nat -> nth_error st' i = nth_error st i)
    /\ (forall i n, nth_error st' i = Some n -> (length st <= i)%nat -> n_visits n = f0).
  Proof.
    induction l as [|i l IH]; intros st r st' r' HV HC HN Hlt Hval H.
    - injection H as <- <-. split; [exact HV|]. split; [exact HC|]. split; [apply grows_refl|]. split; [intros i []|]. split; [auto|].
      intros i n E Hi. apply nth_error_lt in E. lia.
    - cbn [mfold] in H. destruct (par_expand_root prob (st, r) i) as [[st1 r1]|] eqn:E1; cbn [bind] in H; [|discriminate].
      inversion HN as [|? ? Hnin HN']; subst.
      unfold par_expand_root in E1. destruct (forest_root_lt _ _ _ _ (proj1 HV) (Hlt i (or_introl eq_refl))) as (n & s & En & _).
      unfold get_node in E1. rewrite En in E1. cbn [bind] in E1.
      destruct (select0 prob i) as [p|]; cbn [bind] in E1; [|discriminate].
      set (n1 := mkNode (n_state n) (n_idx n) (n_parent n) (n_children n) f1 (n_value n) (n_policy n) (n_action n) (n_exp n)) in *.
      destruct (alpha_expand_tensor p n1 st r) as [[[n' st1'] r1']|] eqn:Ex; cbn [bind] in E1; [|discriminate]. injection E1 as <- <-.
      destruct (expand_all G I HA ss st i n n1 _ r n' st1' r1' HV En ltac:(repeat split)
          ltac:(intros _; right; exact poscounter1) ltac:(intros _; exact poscounter1) Ex) as (HV1 & HG1 & HC1 & Hold & Hni & Hn' & Hnew).
      assert (Hi : (i < length st)%nat) by (eapply nth_error_lt; exact En).
      assert (HL1 : (length st <= length st1')%nat) by apply HG1.
      assert (Hltst : forall j, In j (i :: l) -> (j < length st)%nat).
      { intros j Hj. destruct (forest_root_lt _ _ _ _ (proj1 HV) (Hlt j Hj)) as (m & s' & Em & _). eapply nth_error_lt. exact Em. }
      destruct (IH st1' r1' st' r' HV1 (HC1 HC) HN') as (HV2 & HC2 & HG2 & HR2 & Hold2 & Hnew2); [intros j Hj; apply Hlt; right; exact Hj| |exact H|].
      { intros j m Hj Em. rewrite Hold in Em; [|apply Hltst; right; exact Hj|intros ->; contradiction]. eapply Hval; [right; exact Hj|exact Em]. }
      split; [exact HV2|]. split; [exact HC2|]. split; [eapply grows_trans; eassumption|]. split; [|split].
      + intros j [<-|Hj]; [|apply HR2; exact Hj]. exists n'. rewrite Hold2 by (try assumption; lia). split; [exact Hni|].
        rewrite Hn'. repeat split. cbn. eapply Hval; [left; reflexivity|exact En].
      + intros j Hj Hjl. rewrite Hold2; [|intros Hin; apply Hj; right; exact Hin|lia]. apply Hold; [exact Hjl|intros ->; apply Hj; left; reflexivity].
      + intros j m Em Hj. destruct (Nat.lt_ge_cases j (length st1')) as [Hj1|Hj1]; [|eapply Hnew2; eassumption].
        rewrite Hold2 in Em; [|intros Hin; specialize (Hltst j (or_intror Hin)); lia|exact Hj1].
        destruct (Hnew j m Em Hj) as (a & code & v & _ & _ & Hv & _). exact Hv.
  Qed.
  Lemma expand_roots_ok ss prob : shape prob = [length ss; asize G] -> length (data prob) = (length ss * asize G)%nat ->
    forall l st r, inv ss st -> (forall i, In i l -> (i < length ss)%nat) ->
    exists st' r', mfold (par_expand_root prob) l (st, r) = Ok (st', r').
  Proof.
    intros Hs HL. induction l as [|i l IH]; intros st r HV Hlt; cbn [mfold]; [eauto|].
    pose proof (Hlt i (or_introl eq_refl)) as Hi. destruct (forest_root_lt _ _ _ _ (proj1 HV) Hi) as (n & s & En & _).
    unfold par_expand_root at 1. unfold get_node. rewrite En. cbn [bind]. rewrite (select0_row _ _ _ _ _ Hs Hi). cbn [bind].
    set (n1 := mkNode (n_state n) (n_idx n) (n_parent n) (n_children n) f1 (n_value n) (n_policy n) (n_action n) (n_exp n)).
    set (p := {| shape := [asize G]; data := firstn (asize G) (skipn (i * asize G) (data prob)) |} : tensor f32).
    destruct (expand_ok ss st i n n1 (fun c => double_value p [Z.to_nat c]) r HV En ltac:(repeat split)) as (n' & st1 & r1 & Ex).
    { intros c Hc. eexists. apply (double_value_1 _ f0 _ (asize G)); [reflexivity| |lia]. cbn [data p]. apply (firstn_skipn_len _ _ _ _ (length ss)); assumption. }
    unfold alpha_expand_tensor. rewrite Ex. cbn [bind].
    destruct (expand_all G I HA ss st i n n1 _ r n' st1 r1 HV En ltac:(repeat split)
          ltac:(intros _; right; exact poscounter1) ltac:(intros _; exact poscounter1) Ex) as (HV1 & _).
    apply IH; [exact HV1|]. intros j Hj. apply Hlt. right. exact Hj.
  Qed.
  Lemma par_init_inv ss r st r' : par_init tsum dirichlet nt cfg ss r = Ok (st, r') -> (forall s, In s ss -> I s) ->
    inv ss st /\ counters st /\ (forall g, (g < length ss)%nat -> rooted st g)
    /\ (forall i n, nth_error st i = Some n -> (length ss <= i)%nat -> n_visits n = f0).
  Proof.
    intros H HI. unfold par_init in H. destruct (batch ss) as [x|]; cbn [bind] in H; [|discriminate].
    destruct (apply_dirichlet dirichlet (net_policy nt x) (dir_alpha cfg) (dir_eps cfg) r) as [[dir r1]|]; cbn [bind] in H; [|discriminate].
    destruct (par_roots ss) as [st0|] eqn:Er; cbn [bind] in H; [|discriminate].
    destruct (turn_policy_to_probs_tensor_parallel tsum st0 (seq 0 (length ss)) dir) as [prob|]; cbn [bind] in H; [|discriminate].
    destruct (roots_inv ss st0 Er HI) as [HV0 HC0].
    destruct (expand_roots_inv ss prob (seq 0 (length ss)) st0 r1 st r' HV0 HC0 (seq_NoDup _ _)) as (HV & HC & HG & HR & Hold & Hnew);
      [intros i Hi; apply in_seq in Hi; lia| |exact H|].
    { intros i n _ E. destruct (roots_node ss st0 Er i n E) as (s & vm & _ & _ & ->). reflexivity. }
    split; [exact HV|]. split; [exact HC|]. split; [intros g Hg; apply HR, in_seq; lia|].
    destruct (par_roots_inv ss st0 Er) as [HL0 _]. rewrite HL0 in Hnew. exact Hnew.
  Qed.
  Lemma par_init_ok ss r : ss <> [] -> (forall s, In s ss -> I s) -> net_ok G nt -> SFltb f0 (dir_alpha cfg) = true ->
    (forall k a rr, length (fst (dirichlet k a rr)) = k) ->
    exists st r', par_init tsum dirichlet nt cfg ss r = Ok (st, r').
  Proof.
    intros Hne HI HNet Halpha Hdir. unfold par_init. destruct (ag_tensor _ _ HA) as [sh Hsh].
    destruct (batch_ok G sh ss Hne ltac:(intros s Hs; apply Hsh, HI, Hs)) as (x & Ex & Hx). rewrite Ex. cbn [bind].
    destruct (HNet x (length ss) sh Hx) as (Sp & Lp & _). pose proof (ag_actions _ _ HA) as HAct.
    assert (Hdn : dirichlet_new (asize G) (dir_alpha cfg) = Ok tt).
    { unfold dirichlet_new. rewrite Halpha. destruct (Nat.leb_spec 2 (asize G)); [reflexivity|lia]. }
    unfold apply_dirichlet. rewrite Sp, Hdn. cbn [bind]. destruct (dirichlet (asize G) (dir_alpha cfg) r) as [sample r1] eqn:Ed. cbn [bind].
    assert (HLs : length sample = asize G) by (specialize (Hdir (asize G) (dir_alpha cfg) r); rewrite Ed in Hdir; exact Hdir).
    destruct (par_roots_ok ss [] HI) as [st0 Er]. unfold par_roots. rewrite Er. cbn [bind]. fold (par_roots ss) in Er.
    set (mix := fun row : list f32 => map (fun xd => fadd (fmul (fsub f1 (dir_eps cfg)) (fst xd)) (fmul (dir_eps cfg) (snd xd))) (combine row sample)).
    set (dir := mkT [length ss; asize G] (concat (map mix (rows (net_policy nt x)))) : tensor f32).
    assert (Hmixlen : forall row, In row (map mix (rows (net_policy nt x))) -> length row = asize G).
    { intros row Hr. apply in_map_iff in Hr. destruct Hr as (row0 & <- & Hr0). unfold mix. rewrite map_length, combine_length.
      rewrite (rows_row_len _ _ _ _ Sp Lp row0 Hr0), HLs. lia. }
    assert (HLd : length (data dir) = (length ss * asize G)%nat).
    { cbn [data dir]. rewrite (concat_len _ _ (asize G) Hmixlen), map_length, (rows_len _ _ _ _ Sp). reflexivity. }
    destruct (roots_inv ss st0 Er HI) as [HV0 HC0]. destruct (par_roots_inv ss st0 Er) as [HL0 HR0].
    assert (Hprob : exists prob, turn_policy_to_probs_tensor_parallel tsum st0 (seq 0 (length ss)) dir = Ok prob
              /\ shape prob = [length ss; asize G] /\ length (data prob) = (length ss * asize G)%nat).
    { unfold turn_policy_to_probs_tensor_parallel.
      destruct (mmap_all_ok _ _ (fun i => n <- get_node st0 i;; encode_all (n_state n) (n_exp n)) (seq 0 (length ss))) as [codes Ec].
      { intros i Hi. apply in_seq in Hi. destruct (nth_error_ex _ st0 i ltac:(lia)) as [n En]. unfold get_node. rewrite En. cbn [bind]. unfold encode_all.
        apply mmap_all_ok. intros a Ha. destruct (exp_codes ss st0 i n HV0 En a Ha) as [_ (c & Eac & _)]. eauto. }
      rewrite Ec. cbn [bind]. pose proof (mmap_ok_in _ _ _ _ _ Ec) as HF2.
      assert (Hcodes : forall i cs, In (i, cs) (combine (seq 0 (length ss)) codes) -> (i < length ss)%nat /\ forall c, In c cs -> 0 <= c < Z.of_nat (asize G)).
      { assert (Hgen : forall l cl, Forall2 (fun i cs => (n <- get_node st0 i;; encode_all (n_state n) (n_exp n)) = Ok cs) l cl ->
           (forall i, In i l -> (i < length ss)%nat) -> forall i cs, In (i, cs) (combine l cl) -> (i < length ss)%nat /\ forall c, In c cs -> 0 <= c < Z.of_nat (asize G)).
        { induction 1 as [|i cs l cl Hic HF IH]; intros Hl j ds Hin; [destruct Hin|]. destruct Hin as [[= <- <-]|Hin]; [|apply IH; [intros k Hk; apply Hl; right; exact Hk|exact Hin]].
          split; [apply Hl; left; reflexivity|]. intros c Hc. unfold get_node in Hic. destruct (nth_error st0 i) as [n|] eqn:En; cbn [bind] in Hic; [|discriminate].
          apply mmap_ok_in in Hic. destruct (forall2_in_r _ _ _ _ _ _ Hic Hc) as (a & Ha & Ea). destruct (exp_codes ss st0 i n HV0 En a Ha) as [_ (c' & Ec' & Hc')].
          rewrite Ea in Ec'. injection Ec' as <-. exact Hc'. }
        apply Hgen; [exact HF2|]. intros i Hi. apply in_seq in Hi. lia. }
      unfold probs_tensor_parallel. rewrite put2_puts2.
      set (xy := flat_map (fun ic => map (fun c => (Z.of_nat (fst ic), c)) (snd ic)) (combine (seq 0 (length ss)) codes)).
      assert (Sd : shape dir = [length ss; asize G]) by reflexivity.
      change (V (num32 tsum)) with f32 in *.
      destruct (puts2_ok _ (combine xy (map (fun _ => v1 (num32 tsum)) xy)) (asize G) (map (map (fun _ => v0 (num32 tsum))) (rows dir))) as (mask & Em & HLm & HRm).
      { intros row Hr. apply in_map_iff in Hr. destruct Hr as (row0 & <- & Hr0). rewrite map_length. apply (rows_row_len _ _ _ _ Sd HLd row0 Hr0). }
      { apply Forall_forall. intros [[a b] v] Hin. apply in_combine_l in Hin. unfold xy in Hin. apply in_flat_map in Hin.
        destruct Hin as ([i cs] & Hic & Hin). cbn [fst snd] in *. apply in_map_iff in Hin. destruct Hin as (c & [= <- <-] & Hc).
        destruct (Hcodes i cs Hic) as [Hi Hcs]. rewrite map_length, (rows_len _ _ _ _ Sd). split; [lia|apply Hcs; exact Hc]. }
      change (V (num32 tsum)) with f32 in Em. rewrite Em. cbn [bind]. eexists. split; [reflexivity|]. split; [reflexivity|]. cbn [data].
      rewrite map_length, (rows_len _ _ _ _ Sd) in HLm.
      rewrite (concat_len _ _ (asize G)).
      - rewrite !map_length, combine_length, (rows_len _ _ _ _ Sd). cbn [V num32] in *. rewrite HLm. lia.
      - intros row Hr. apply in_map_iff in Hr. destruct Hr as (r2 & <- & Hr2). rewrite map_length. apply in_map_iff in Hr2. destruct Hr2 as ([pa ma] & <- & Hpm).
        cbn [fst snd]. rewrite map_length, combine_length. pose proof (in_combine_l _ _ _ _ Hpm) as Hp1. pose proof (in_combine_r _ _ _ _ Hpm) as Hp2.
        cbn [V num32] in *. rewrite (HRm ma Hp2), (rows_row_len _ _ _ _ Sd HLd pa Hp1). lia. }
    destruct Hprob as (prob & Eprob & Sprob & Lprob). rewrite Eprob. cbn [bind].
    apply (expand_roots_ok ss prob Sprob Lprob); [exact HV0|]. intros i Hi. apply in_seq in Hi. lia.
  Qed.

  (** ** the whole search *)
  Lemma sel0_ok ss st : inv ss st -> ss <> [] -> sel_ok G ss st (repeat 0%nat (length ss)).
  Proof.
    intros HV Hne. split; [apply repeat_length|]. intros i Hi. apply repeat_spec in Hi. subst.
    destruct (forest_root_lt _ _ _ 0%nat (proj1 HV)) as (n & s & En & _); [destruct ss; [congruence|cbn; lia]|]. eapply nth_error_lt. exact En.
  Qed.
  Lemma par_init_nonempty ss r st r' : par_init tsum dirichlet nt cfg ss r = Ok (st, r') -> ss <> [].
  Proof. intros H ->. discriminate H. Qed.
  Lemma parallel_order ss o1 o2 r : (forall s, In s ss -> I s) ->
    Permutation o1 (seq 0 (length ss)) -> Permutation o2 (seq 0 (length ss)) ->
    alpha_mcts_parallel tsum dirichlet nt cfg o1 [] ss r = alpha_mcts_parallel tsum dirichlet nt cfg o2 [] ss r.
  Proof.
    intros HI P1 P2. unfold alpha_mcts_parallel. destruct (par_init tsum dirichlet nt cfg ss r) as [[st r1]|] eqn:E; cbn [bind]; [|reflexivity].
    destruct (par_init_inv ss r st r1 E HI) as (HV & HC & _).
    rewrite (par_loop_order G I HA tsum nt cfg ss o1 o2 P1 P2); [reflexivity|exact HV|]. apply sel0_ok; [exact HV|]. eapply par_init_nonempty. exact E.
  Qed.
  Lemma par_loop_ok ss order : net_ok G nt -> Permutation order (seq 0 (length ss)) -> forall k st sel r, inv ss st -> sel_ok G ss st sel ->
    exists st' sel' r', par_loop tsum nt cfg k order (st, sel, r) = Ok (st', sel', r').
  Proof.
    intros HNet HP. induction k as [|k IH]; intros st sel r HV Hs; cbn [par_loop]; [eauto|].
    destruct (par_iter_ok G I HA tsum nt cfg ss order st sel r HNet HV Hs HP) as (st1 & sel1 & r1 & E). rewrite E. cbn [bind].
    destruct (par_iter_inv G I HA tsum nt cfg ss order st sel r st1 sel1 r1 HV Hs HP E) as (HV1 & _ & _ & Hs1 & _). apply IH; assumption.
  Qed.
  Lemma parallel_ok ss order r : ss <> [] -> (forall s, In s ss -> I s) -> net_ok G nt -> SFltb f0 (dir_alpha cfg) = true ->
    (forall k a rr, length (fst (dirichlet k a rr)) = k) -> Permutation order (seq 0 (length ss)) ->
    exists st r', alpha_mcts_parallel tsum dirichlet nt cfg order [] ss r = Ok (st, r').
  Proof.
    intros Hne HI HNet Hal Hdir HP. unfold alpha_mcts_parallel.
    destruct (par_init_ok ss r Hne HI HNet Hal Hdir) as (st & r1 & E). rewrite E. cbn [bind].
    destruct (par_init_inv ss r st r1 E HI) as (HV & _).
    destruct (par_loop_ok ss order HNet HP (iterations cfg) st (repeat 0%nat (length ss)) r1 HV (sel0_ok _ _ HV Hne)) as (st' & sel' & r' & El).
    rewrite El. cbn [bind]. eauto.
  Qed.
End C.
