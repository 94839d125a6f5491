(** * AlphaPar: the batched search: selection phase, independence of the order of games,
    visit accounting. *)
From Verif Require Import Base BaseFacts F32 F32Facts Tensor TensorFacts GameModel McModel McSpec AlphaModel AlphaSpec McProof McProof2 AlphaProof.
From Coq Require Import Arith Permutation.
Require Import ZifyBool ZifyNat.

Lemma nth_error_ext (A : Type) (l : list A) : forall l', (forall i, nth_error l i = nth_error l' i) -> l = l'.
Proof.
  induction l as [|x l IH]; intros [|y l'] H; [reflexivity|specialize (H 0%nat); discriminate..|].
  f_equal; [specialize (H 0%nat); cbn in H; congruence|]. apply IH. intros i. exact (H (S i)).
Qed.
Definition mem (g : nat) (l : list nat) : bool := existsb (Nat.eqb g) l.
Lemma mem_spec g l : mem g l = true <-> In g l.
Proof.
  unfold mem. rewrite existsb_exists. split; [intros (x & Hx & E); apply Nat.eqb_eq in E; subst; exact Hx|].
  intros H. exists g. split; [exact H|apply Nat.eqb_refl].
Qed.
Lemma mem_false g l : mem g l = false <-> ~ In g l.
Proof. rewrite <- mem_spec. destruct (mem g l); split; intros H; congruence. Qed.
Lemma bool_iff_eq (a b : bool) : (a = true <-> b = true) -> a = b.
Proof. destruct a, b; intros [H1 H2]; auto. symmetry. auto. Qed.

Lemma counter_bump v : counter v -> poscounter (fadd v f1).
Proof.
  intros (k & Hk & ->). destruct (Z.eq_dec k (2 ^ 24)) as [->|Hne].
  - exists (2 ^ 24). rewrite counter_stuck. split; [lia|reflexivity].
  - exists (k + 1). rewrite counter_step by lia. split; [lia|reflexivity].
Qed.
Lemma poscounter_counter v : poscounter v -> counter v.
Proof. intros (k & Hk & ->). exists k. split; [lia|reflexivity]. Qed.
Lemma counter0 : counter f0.
Proof. exists 0. split; [lia|reflexivity]. Qed.
Lemma poscounter1 : poscounter f1.
Proof. exists 1. split; [lia|reflexivity]. Qed.

Section A.
  Variable G : Game.
  Variable I : St G -> Prop.
  Hypothesis HA : alpha_game G I.
  Implicit Types (st : store G) (n : node G).
  Notation all_I := (all_I G I).

  Definition inv (roots : list (St G)) st : Prop := forest roots st /\ all_I st.
  Lemma inv_shape roots st st' : shape_eq G st st' -> inv roots st -> inv roots st'.
  Proof. intros HS [H1 H2]. split; [eapply forest_shape; eassumption|eapply all_I_shape; eassumption]. Qed.
  Lemma all_I_nth st i n : all_I st -> nth_error st i = Some n -> I (n_state n).
  Proof. intros H E. apply H. eapply nth_error_In. exact E. Qed.

  (** nodes only gain visits, and an expanded node keeps its children *)
  Definition grows st st' : Prop :=
    (length st <= length st')%nat
    /\ (forall i n, nth_error st i = Some n -> exists n', nth_error st' i = Some n'
         /\ n_state n' = n_state n /\ n_parent n' = n_parent n /\ n_action n' = n_action n
         /\ n_idx n' = n_idx n /\ n_policy n' = n_policy n
         /\ (n_children n <> [] -> n_children n' = n_children n)
         /\ (n_exp n = [] -> n_children n' = n_children n /\ n_exp n' = [])
         /\ (counter (n_visits n) -> poscounter (n_visits n') \/ n_visits n' = n_visits n)
         /\ (poscounter (n_visits n) -> poscounter (n_visits n')))
    /\ (forall i j, (i < length st)%nat -> (on_path st' i j <-> on_path st i j)).
  Lemma grows_refl st : grows st st.
  Proof. split; [lia|]. split; [|intros; tauto]. intros i n E. exists n. repeat split; auto. Qed.
  Lemma grows_trans a b c : grows a b -> grows b c -> grows a c.
  Proof.
    intros (L1 & H1 & P1) (L2 & H2 & P2). split; [lia|]. split.
    - intros i n E. destruct (H1 i n E) as (n1 & E1 & A1 & A2 & A3 & A4 & A5 & A6 & A7 & A8 & A9).
      destruct (H2 i n1 E1) as (n2 & E2 & B1 & B2 & B3 & B4 & B5 & B6 & B7 & B8 & B9).
      exists n2. split; [exact E2|]. repeat (split; [congruence|]). split.
      { intros Hc. rewrite (B6 ltac:(rewrite (A6 Hc); exact Hc)). auto. }
      split. { intros He. destruct (A7 He) as [C1 C2]. destruct (B7 C2) as [D1 D2]. split; congruence. }
      split; [|auto]. intros Hc. destruct (A8 Hc) as [Hp|Hp]; [left; auto|].
      destruct (B8 ltac:(rewrite Hp; exact Hc)) as [Hq|Hq]; [left; exact Hq|right; congruence].
    - intros i j Hi. rewrite P2 by lia. apply P1. exact Hi.
  Qed.
  Definition counters st : Prop := forall i n, nth_error st i = Some n -> counter (n_visits n).

  (** backpropagation *)
  Lemma backprop_all roots st i v : inv roots st -> (i < length st)%nat ->
    exists st', backpropagate i v st = Ok st' /\ shape_eq G st st'
      /\ (forall j n, nth_error st j = Some n -> nth_error st' j = Some (if pathb G st i j then bump n v else n)).
  Proof.
    intros [HF HI] Hi. pose proof (forest_parents_down _ _ _ HF) as HP.
    destruct (backprop_spec G i v st Hi HP) as (st' & E & HS & H). exists st'. split; [exact E|]. split; [exact HS|].
    intros j n Ej. destruct (H j n Ej) as [H1 H2]. pose proof (pathb_spec G st i j HP Hi) as Hb. destruct (pathb G st i j).
    - apply H1. apply Hb. reflexivity.
    - apply H2. intros Hp. apply Hb in Hp. discriminate.
  Qed.
  Lemma shape_path st st' i j : shape_eq G st st' -> (on_path st' i j <-> on_path st i j).
  Proof. intros HS. split; apply on_path_shape; [apply shape_eq_sym|]; exact HS. Qed.
  Lemma pathb_shape st st' i j : parents_down st -> shape_eq G st st' -> (i < length st)%nat -> pathb G st' i j = pathb G st i j.
  Proof.
    intros HP HS Hi. apply bool_iff_eq. rewrite !pathb_spec; [apply shape_path; exact HS|exact HP|exact Hi|eapply parents_down_shape; eassumption|].
    rewrite <- (shape_eq_length _ _ _ HS). exact Hi.
  Qed.
  Lemma bumped_grows st st' (b : nat -> option f32) : shape_eq G st st' ->
    (forall j n, nth_error st j = Some n -> nth_error st' j = Some (match b j with Some v => bump n v | None => n end)) ->
    grows st st'.
  Proof.
    intros HS H. split; [rewrite (shape_eq_length _ _ _ HS); lia|]. split; [|intros; apply shape_path; exact HS].
    intros i n E. exists (match b i with Some v => bump n v | None => n end). split; [apply H; exact E|].
    destruct (b i) as [v|]; cbn; repeat split; auto.
    - intros Hc. left. apply counter_bump. exact Hc.
    - intros Hc. apply counter_bump. apply poscounter_counter. exact Hc.
  Qed.
  Lemma bumped_counters st st' (b : nat -> option f32) : shape_eq G st st' ->
    (forall j n, nth_error st j = Some n -> nth_error st' j = Some (match b j with Some v => bump n v | None => n end)) ->
    counters st -> counters st'.
  Proof.
    intros HS H Hc i n' E. destruct (shape_eq_nth _ _ _ _ _ (shape_eq_sym _ _ _ HS) E) as (n & En & _).
    rewrite (H _ _ En) in E. injection E as <-. destruct (b i); [|eapply Hc; exact En]. cbn.
    apply poscounter_counter, counter_bump. eapply Hc. exact En.
  Qed.
  Lemma if_opt (x : bool) (n : node G) v : (if x then bump n v else n) = match (if x then Some v else None) with Some v => bump n v | None => n end.
  Proof. destruct x; reflexivity. Qed.

  (** expansion *)
  Lemma expand_all roots st i n0 n prior r n' st' r' : inv roots st -> nth_error st i = Some n0 -> same_shape G n0 n ->
    (counter (n_visits n0) -> n_visits n = n_visits n0 \/ poscounter (n_visits n)) -> (poscounter (n_visits n0) -> poscounter (n_visits n)) ->
    alpha_expand_with prior n st r = Ok (n', st', r') ->
    inv roots st' /\ grows st st' /\ (counters st -> counters st')
    /\ (forall j, (j < length st)%nat -> j <> i -> nth_error st' j = nth_error st j)
    /\ nth_error st' i = Some n' /\ n' = expanded G n (n_children n ++ seq (length st) (length (n_exp n)))
    /\ (forall j m, nth_error st' j = Some m -> (length st <= j)%nat -> exists a code v, n_parent m = Some i /\ n_children m = [] /\ n_visits m = f0 /\ n_value m = f0
          /\ n_action m = Some a /\ g_encode G (n_state n) a = Ok code /\ prior code = Ok v /\ n_policy m = v).
  Proof.
    intros [HF HI] E0 HS Hv1 Hv2 H. assert (Hidx : n_idx n = i) by (eapply al_idx; eassumption).
    pose proof (nth_error_lt _ _ _ _ E0) as Hlt.
    apply expand_inv_alpha in H; [|rewrite Hidx; exact Hlt]. destruct H as (kids & -> & -> & HL & HK). rewrite Hidx.
    pose (n2 := expanded G n (n_children n ++ seq (length st) (length (n_exp n)))).
    assert (Hmv : forall a, In a (n_exp n) -> exists vm, g_valid G (n_state n) = Ok vm /\ In a vm).
    { intros a Ha. destruct HS as (S1 & _ & _ & _ & _ & _ & S7). destruct (fo_moves _ _ _ HF _ _ E0) as (vm & Hv & [[_ He]|[He _]]).
      - exists vm. rewrite <- S1. split; [exact Hv|]. rewrite <- He, S7. exact Ha.
      - rewrite <- S7, He in Ha. destruct Ha. }
    split; [|split; [|split; [|split; [|split; [|split]]]]].
    - split; [eapply al_forest; eassumption|].
      intros m Hm. apply In_nth_error in Hm. destruct Hm as [j Ej]. destruct (Nat.lt_ge_cases j (length st)) as [Hj|Hj].
      + destruct (al_back G st i n0 n kids E0 HS _ _ Ej Hj) as (m0 & Em0 & Hs & _). rewrite Hs. eapply all_I_nth; eassumption.
      + destruct (al_nth_new G st i n prior kids HL HK _ _ Ej Hj) as (k & a & Hk & Ea & Em & code & v & vm & ra & rb & _ & _ & Hap & _).
        destruct (Hmv a ltac:(eapply nth_error_In; exact Ea)) as (vm' & Hv' & Hin).
        assert (HIn : I (n_state n)) by (destruct HS as (<- & _); eapply all_I_nth; eassumption).
        destruct (good_apply _ _ (ag_good _ _ HA) _ _ _ ra HIn Hv' Hin) as (s' & r'' & Eap & HIs). rewrite Hap in Eap. injection Eap as -> _. exact HIs.
    - split; [rewrite (al_len G st i n kids HL); lia|]. split.
      + intros j m Em. destruct (Nat.eq_dec j i) as [->|Hne].
        * rewrite E0 in Em. injection Em as <-. exists n2. split; [eapply al_nth_i; eassumption|]. pose proof HS as (S1 & S2 & S3 & S4 & S5 & S6 & S7). cbn.
          repeat (split; [symmetry; assumption|]).
          destruct (fo_moves _ _ _ HF _ _ E0) as (vm & Hv & [[Hc He]|[He _]]).
          -- split; [intros Hc'; congruence|]. split; [|split; [tauto|assumption]]. rewrite <- S7, <- S4. intros ->. cbn. rewrite app_nil_r. auto.
          -- rewrite <- S7, He, <- S4. cbn [length seq]. rewrite app_nil_r. split; [auto|]. split; [auto|]. split; [|assumption]. intros Hc.
             destruct (Hv1 Hc); [right|left]; assumption.
        * exists m. rewrite (al_nth_old G st i n kids) by (try assumption; eapply nth_error_lt; exact Em). repeat split; auto.
      + intros j k Hj. apply (al_path_old G roots st i n0 n prior kids HF E0 HS HL HK). exact Hj.
    - intros Hc j m Ej. destruct (Nat.lt_ge_cases j (length st)) as [Hj|Hj].
      + destruct (Nat.eq_dec j i) as [->|Hne].
        * rewrite (al_nth_i G st i n0 n kids E0) in Ej. injection Ej as <-. cbn. destruct (Hv1 (Hc _ _ E0)) as [->|Hp]; [eapply Hc; exact E0|].
          apply poscounter_counter. exact Hp.
        * rewrite (al_nth_old G st i n kids) in Ej by assumption. eapply Hc. exact Ej.
      + destruct (al_nth_new G st i n prior kids HL HK _ _ Ej Hj) as (k & a & Hk & Ea & Em & code & v & vm & ra & rb & _ & _ & _ & _ & ->).
        apply counter0.
    - intros j Hj Hne. eapply al_nth_old; eassumption.
    - eapply al_nth_i; eassumption.
    - reflexivity.
    - intros j m Ej Hj. destruct (al_nth_new G st i n prior kids HL HK _ _ Ej Hj) as (k & a & Hk & Ea & Em & code & v & vm & ra & rb & H1 & H2 & _ & _ & ->).
      exists a, code, v. rewrite Hidx. auto 10.
  Qed.

  (** ** the selection phase *)
  Variable cfg : mcfg.
  Variable roots : list (St G).
  (** the leaf selected for game [g], with its score if it is finished *)
  Definition pick st (g : nat) : option (nat * option f32) :=
    match alpha_select_leaf_node g st (cfg_c cfg) with
    | Ok i =>
      match nth_error st i, nth_error st g with
      | Some n, Some root =>
        match g_winner G (n_state n) with
        | Some w => match outcome G (g_player G (n_state root)) w with Ok v => Some (i, Some v) | Panic _ => None end
        | None => Some (i, None)
        end
      | _, _ => None
      end
    | Panic _ => None
    end.
  Lemma pick_spec st g : inv roots st -> (g < length roots)%nat ->
    exists i n o, pick st g = Some (i, o) /\ alpha_select_leaf_node g st (cfg_c cfg) = Ok i /\ nth_error st i = Some n
      /\ n_children n = [] /\ owner roots st i g /\ (o = None <-> g_winner G (n_state n) = None)
      /\ (forall w root, g_winner G (n_state n) = Some w -> nth_error st g = Some root ->
            exists v, outcome G (g_player G (n_state root)) w = Ok v /\ o = Some v).
  Proof.
    intros [HF HI] Hg. destruct (alpha_select_spec G roots st (cfg_c cfg) g HF Hg) as (i & n & Es & En & Hc & Ho).
    destruct (forest_root_lt _ _ _ _ HF Hg) as (root & s & Er & Ers & Hp & Hs).
    unfold pick. rewrite Es, En, Er. destruct (g_winner G (n_state n)) as [w|] eqn:Ew.
    - assert (HIr : I (n_state root)) by (eapply all_I_nth; eassumption).
      destruct (outcome_ok G (g_player G (n_state root)) w (ag_player _ _ HA _ HIr)) as [v Ev]. rewrite Ev.
      exists i, n, (Some v). do 5 (split; [first [reflexivity|assumption]|]). rewrite Ew. split; [split; discriminate|].
      intros w' root' Hw Hr. injection Hw as <-. injection Hr as <-. exists v. split; [exact Ev|reflexivity].
    - exists i, n, None. do 5 (split; [first [reflexivity|assumption]|]). rewrite Ew. split; [split; reflexivity|]. intros w root' Hw. discriminate.
  Qed.
  Lemma pick_local st st' g : inv roots st -> (g < length roots)%nat -> length st' = length st ->
    (forall j, on_path st j g -> nth_error st' j = nth_error st j) -> pick st' g = pick st g.
  Proof.
    intros HV Hg HL Hag. destruct (pick_spec st g HV Hg) as (i & n & o & _ & Es & En & _ & [_ Hi] & _).
    destruct HV as [HF HI]. unfold pick. rewrite (alpha_select_local G roots st st' _ g HF Hg HL Hag), Es.
    rewrite (Hag i Hi), (Hag g). 2: { apply (owner_root _ _ _ _ HF Hg). } reflexivity.
  Qed.
  Definition unfinished st (g : nat) : bool := match pick st g with Some (_, None) => true | _ => false end.
  (** what the selection phase does to node [j] of game [g] *)
  Definition eff st (g j : nat) : option f32 :=
    match pick st g with Some (i, Some v) => if pathb G st i j then Some v else None | _ => None end.
  Definition bump_opt n (o : option f32) : node G := match o with Some v => bump n v | None => n end.

  Lemma par_select_step st sel flag g : inv roots st -> (g < length roots)%nat -> length sel = length roots ->
    exists st', par_select cfg (st, sel, flag) g
        = Ok (st', match pick st g with Some (i, None) => set_nth sel g i | _ => sel end, flag || unfinished st g)
      /\ shape_eq G st st'
      /\ (forall j n g', nth_error st j = Some n -> owner roots st j g' ->
            nth_error st' j = Some (if (g' =? g)%nat then bump_opt n (eff st g j) else n)).
  Proof.
    intros HV Hg HL. destruct (pick_spec st g HV Hg) as (i & n & o & Ep & Es & En & Hc & Ho & Hiff & Hv).
    pose proof HV as [HF HI]. pose proof (forest_parents_down _ _ _ HF) as HP.
    destruct (forest_root_lt _ _ _ _ HF Hg) as (root & s & Er & Ers & Hp & Hs).
    unfold par_select. rewrite Es. cbn [bind]. unfold get_node. rewrite En. cbn [bind].
    destruct (g_winner G (n_state n)) as [w|] eqn:Ew.
    - rewrite Er. cbn [bind]. destruct (Hv w root eq_refl Er) as (v & Eo & ->). rewrite Eo. cbn [bind].
      destruct (backprop_all roots st i v HV (nth_error_lt _ _ _ _ En)) as (st' & Eb & HS & HN). rewrite Eb. cbn [bind].
      exists st'. unfold unfinished, eff. rewrite Ep, orb_false_r. split; [reflexivity|]. split; [exact HS|].
      intros j m g' Em Hoj. rewrite (HN j m Em). destruct (Nat.eqb_spec g' g) as [->|Hne].
      + destruct (pathb G st i j); reflexivity.
      + destruct (pathb G st i j) eqn:Epb; [|reflexivity]. apply pathb_spec in Epb; [|exact HP|eapply nth_error_lt; exact En].
        destruct Hne. eapply owner_unique; [exact HF|exact Hoj|]. eapply owner_up; eassumption.
    - assert (o = None) as -> by (apply Hiff; reflexivity). rewrite upd_ok by lia. cbn [bind]. rewrite Nat2Z.id.
      exists st. unfold unfinished, eff. rewrite Ep, orb_true_r. rewrite (fo_idx _ _ _ HF _ _ En). split; [reflexivity|].
      split; [apply shape_eq_refl|]. intros j m g' Em _. destruct (g' =? g)%nat; exact Em.
  Qed.

  Lemma select_fold : forall order st sel flag, inv roots st -> NoDup order -> (forall g, In g order -> (g < length roots)%nat) ->
    length sel = length roots ->
    exists st' sel' flag', mfold (par_select cfg) order (st, sel, flag) = Ok (st', sel', flag')
      /\ shape_eq G st st'
      /\ (forall j n g, nth_error st j = Some n -> owner roots st j g ->
            nth_error st' j = Some (if mem g order then bump_opt n (eff st g j) else n))
      /\ length sel' = length roots
      /\ (forall g, nth_error sel' g = match pick st g with Some (i, None) => if mem g order then Some i else nth_error sel g | _ => nth_error sel g end)
      /\ flag' = flag || existsb (unfinished st) order.
  Proof.
    induction order as [|g order IH]; intros st sel flag HV HN Hlt HL.
    - exists st, sel, flag. cbn [mfold existsb]. rewrite orb_false_r. split; [reflexivity|]. split; [apply shape_eq_refl|].
      split; [intros j n g En _; exact En|]. split; [exact HL|]. split; [|reflexivity]. intros g. cbn. destruct (pick st g) as [[i [v|]]|]; reflexivity.
    - inversion HN as [|? ? Hnin HN']; subst. assert (Hg : (g < length roots)%nat) by (apply Hlt; left; reflexivity).
      destruct (par_select_step st sel flag g HV Hg HL) as (st1 & E1 & HS1 & HN1).
      set (sel1 := match pick st g with Some (i, None) => set_nth sel g i | _ => sel end) in *.
      assert (HL1 : length sel1 = length roots).
      { unfold sel1. destruct (pick st g) as [[i [v|]]|]; rewrite ?length_set_nth; exact HL. }
      pose proof HV as [HF HI]. pose proof (forest_parents_down _ _ _ HF) as HP.
      destruct (IH st1 sel1 (flag || unfinished st g)) as (st' & sel' & flag' & E2 & HS2 & HN2 & HL2 & HSel & HFl);
        [eapply inv_shape; eassumption|exact HN'|intros h Hh; apply Hlt; right; exact Hh|exact HL1|].
      assert (Hpick : forall h, (h < length roots)%nat -> h <> g -> pick st1 h = pick st h).
      { intros h Hh Hne. apply pick_local; [exact HV|exact Hh|symmetry; apply (shape_eq_length _ _ _ HS1)|].
        intros j Hj. assert (Hoj : owner roots st j h) by (split; assumption).
        destruct (nth_error st j) as [m|] eqn:Em.
        - rewrite (HN1 j m h Em Hoj). destruct (Nat.eqb_spec h g); [congruence|reflexivity].
        - inversion Hj; congruence. }
      assert (Hpathb : forall i j, (i < length st)%nat -> pathb G st1 i j = pathb G st i j) by (intros i j Hi; apply pathb_shape; assumption).
      assert (Heff : forall h j, (h < length roots)%nat -> h <> g -> eff st1 h j = eff st h j).
      { intros h j Hh Hne. unfold eff. rewrite (Hpick h Hh Hne).
        destruct (pick_spec st h HV Hh) as (i & n & o & Ep & _ & En & _). rewrite Ep.
        rewrite Hpathb by (eapply nth_error_lt; exact En). reflexivity. }
      exists st', sel', flag'. cbn [mfold]. rewrite E1. cbn [bind]. split; [exact E2|]. split; [eapply shape_eq_trans; eassumption|].
      split; [|split; [exact HL2|split]].
      + intros j n h En Hoj. pose proof (HN1 j n h En Hoj) as En1. pose proof (HN2 _ _ h En1 (owner_shape _ _ _ _ _ _ HS1 Hoj)) as En2.
        rewrite En2. unfold mem. cbn [existsb]. fold (mem h order). destruct (Nat.eqb_spec h g) as [->|Hne].
        * cbn [orb]. apply mem_false in Hnin. rewrite Hnin. reflexivity.
        * cbn [orb]. rewrite Heff; [reflexivity|apply Hoj|exact Hne].
      + intros h. rewrite HSel. unfold mem. cbn [existsb]. fold (mem h order).
        destruct (Nat.lt_ge_cases h (length roots)) as [Hh|Hh].
        * destruct (Nat.eqb_spec h g) as [->|Hne]; cbn [orb].
          -- apply mem_false in Hnin. rewrite Hnin.
             assert (H1 : nth_error sel1 g = match pick st g with Some (i, None) => Some i | _ => nth_error sel g end).
             { unfold sel1. destruct (pick st g) as [[i [v|]]|]; try reflexivity. apply nth_error_set_same. lia. }
             rewrite <- H1. destruct (pick st1 g) as [[i [v|]]|]; reflexivity.
          -- rewrite (Hpick h Hh Hne). destruct (pick st h) as [[i [v|]]|]; try (destruct (mem h order); [reflexivity|]);
               unfold sel1; destruct (pick st g) as [[i' [v'|]]|]; try reflexivity; apply nth_error_set_other; auto.
        * assert (Hnone : nth_error sel1 h = None /\ nth_error sel h = None) by (split; apply nth_error_None; lia).
          destruct Hnone as [-> ->].
          assert (Hm : mem h order = false) by (apply mem_false; intros Hin; specialize (Hlt h (or_intror Hin)); lia). rewrite Hm.
          destruct (Nat.eqb_spec h g) as [->|Hne]; [lia|]. cbn [orb].
          destruct (pick st1 h) as [[i [v|]]|], (pick st h) as [[i' [v'|]]|]; reflexivity.
      + rewrite HFl, <- orb_assoc. f_equal. cbn [existsb]. f_equal. clear -Hpick Hnin Hlt.
        induction order as [|h order IH]; [reflexivity|]. cbn [existsb]. f_equal.
        * unfold unfinished. rewrite Hpick; [reflexivity|apply Hlt; right; left; reflexivity|intros ->; apply Hnin; left; reflexivity].
        * apply IH; [intros k [<-|Hk]; apply Hlt; [left; reflexivity|right; right; exact Hk]|]. intros Hin; apply Hnin; right; exact Hin.
  Qed.

  (** the order does not matter *)
  Lemma select_order o1 o2 st sel : inv roots st -> length sel = length roots ->
    Permutation o1 (seq 0 (length roots)) -> Permutation o2 (seq 0 (length roots)) ->
    mfold (par_select cfg) o1 (st, sel, false) = mfold (par_select cfg) o2 (st, sel, false).
  Proof.
    intros HV HL P1 P2.
    assert (Hc : forall o, Permutation o (seq 0 (length roots)) -> NoDup o /\ (forall g, In g o <-> (g < length roots)%nat)).
    { intros o P. split; [eapply Permutation_NoDup; [apply Permutation_sym; exact P|apply seq_NoDup]|].
      intros g. split; intros H; [apply (Permutation_in _ P) in H; apply in_seq in H; lia|].
      apply (Permutation_in _ (Permutation_sym P)). apply in_seq. lia. }
    destruct (Hc o1 P1) as [N1 M1], (Hc o2 P2) as [N2 M2].
    destruct (select_fold o1 st sel false HV N1 ltac:(intros g Hg; apply M1; exact Hg) HL) as (a1 & b1 & c1 & E1 & S1 & A1 & L1 & B1 & C1).
    destruct (select_fold o2 st sel false HV N2 ltac:(intros g Hg; apply M2; exact Hg) HL) as (a2 & b2 & c2 & E2 & S2 & A2 & L2 & B2 & C2).
    assert (Hmem : forall g, mem g o1 = mem g o2) by (intros g; apply bool_iff_eq; rewrite !mem_spec, M1, M2; reflexivity).
    rewrite E1, E2. f_equal. f_equal; [f_equal|].
    - apply nth_error_ext. intros j. destruct (nth_error st j) as [n|] eqn:En.
      + destruct (owner_ex _ _ _ (proj1 HV) j (nth_error_lt _ _ _ _ En)) as [g Hg].
        rewrite (A1 _ _ _ En Hg), (A2 _ _ _ En Hg), Hmem. reflexivity.
      + apply nth_error_None in En. pose proof (shape_eq_length _ _ _ S1). pose proof (shape_eq_length _ _ _ S2).
        transitivity (@None (node G)); [|symmetry]; apply nth_error_None; lia.
    - apply nth_error_ext. intros g. rewrite B1, B2, Hmem. reflexivity.
    - rewrite C1, C2. cbn [orb]. apply bool_iff_eq. rewrite !existsb_exists. split; intros (g & Hg & Hu); exists g; (split; [|exact Hu]).
      + apply M2, M1. exact Hg.
      + apply M1, M2. exact Hg.
  Qed.
End A.
