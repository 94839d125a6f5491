(** * AlphaLog: the reports and the priors of the batched search. *)
From Verif Require Import Base BaseFacts F32 F32Facts Tensor TensorFacts GameModel McModel McSpec AlphaModel AlphaSpec
  LogSpec AlphaLogSpec McProof McProof2 AlphaProof AlphaPar AlphaPar2 AlphaPar3 ProbFacts AlphaApi2 LogProof.
From Coq Require Import Arith Permutation.
Require Import ZifyBool ZifyNat.

(** ** priors as formulas *)
Lemma existsb_in (j : Z) codes : existsb (Z.eqb j) codes = true <-> In j codes.
Proof.
  rewrite existsb_exists. split; [intros (x & Hx & E); apply Z.eqb_eq in E; subst; exact Hx|]. intros H. exists j. split; [exact H|apply Z.eqb_refl].
Qed.
Lemma list_eq_nth (A : Type) (d : A) (l : list A) : forall l', length l = length l' -> (forall j, (j < length l)%nat -> nth j l d = nth j l' d) -> l = l'.
Proof.
  induction l as [|x l IH]; intros [|y l'] HL H; try discriminate; [reflexivity|]. f_equal.
  - apply (H 0%nat). cbn. lia.
  - apply IH; [cbn in HL; lia|]. intros j Hj. apply (H (S j)). cbn. lia.
Qed.
Lemma nth_map_seq (A : Type) (d : A) (f : nat -> A) n j : (j < n)%nat -> nth j (map f (seq 0 n)) d = f j.
Proof. intros H. rewrite nth_indep with (d' := f 0%nat) by (rewrite map_length, seq_length; exact H). rewrite map_nth, seq_nth by exact H. reflexivity. Qed.
Lemma nth_map_lt (A B : Type) (d : A) (e : B) (f : A -> B) l j : (j < length l)%nat -> nth j (map f l) e = f (nth j l d).
Proof. intros H. rewrite nth_indep with (d' := f d) by (rewrite map_length; exact H). apply map_nth. Qed.

Lemma probs_tensor_masked tsum (row : list f32) codes (p : list f32) : NoDup codes -> probs_tensor (num32 tsum) row codes = Ok p ->
  p = map (fun x => fdiv x (tsum (masked codes row))) (masked codes row).
Proof.
  intros HN. unfold probs_tensor. change (V (num32 tsum)) with f32. destruct (mmap (idx row) codes) as [vals|] eqn:Ev; cbn [bind]; [|discriminate].
  rewrite put1_puts. cbn [num32 v0 vdiv vsum]. destruct (puts _ _) as [r|] eqn:Er; cbn [bind]; [|discriminate]. intros [= <-].
  apply mmap_ok_in in Ev. pose proof (forall2_len _ _ _ _ _ Ev) as HLv.
  assert (Hfst : map fst (combine codes vals) = codes) by (apply map_fst_combine; lia).
  destruct (puts_inv _ f0 _ _ _ Er) as (HL & Hoff & Hon). rewrite Hfst in Hoff, Hon. specialize (Hon HN). rewrite map_length in HL, Hon.
  assert (r = masked codes row) as ->; [|reflexivity].
  apply (list_eq_nth _ f0); [unfold masked; rewrite map_length, seq_length; exact HL|]. intros j Hj. unfold masked. rewrite nth_map_seq by lia.
  destruct (existsb (Z.eqb (Z.of_nat j)) codes) eqn:Ej.
  - apply existsb_in in Ej. clear -Ev Ej Hon Hj HL. induction Ev as [|c v codes vals Hcv HF IH]; [destruct Ej|]. cbn [combine In] in *.
    destruct Ej as [->|Ej]; [|apply IH; [intros c' v' H'; apply Hon; auto|exact Ej]].
    destruct (Hon (Z.of_nat j) v (or_introl eq_refl)) as [Hr Hn]. rewrite Nat2Z.id in Hn. rewrite Hn.
    rewrite (idx_ok _ f0) in Hcv by exact Hr. rewrite Nat2Z.id in Hcv. congruence.
  - rewrite Hoff; [rewrite map_const; apply nth_repeat_any|]. intros Hin. apply existsb_in in Hin. congruence.
Qed.
Lemma masked_at codes row c : 0 <= c < Z.of_nat (length row) -> In c codes -> nth (Z.to_nat c) (masked codes row) f0 = nth (Z.to_nat c) row f0.
Proof.
  intros Hc Hin. unfold masked. rewrite nth_map_seq by lia. rewrite Z2Nat.id by lia. apply existsb_in in Hin. rewrite Hin. reflexivity.
Qed.
Lemma masked_len codes row : length (masked codes row) = length row.
Proof. unfold masked. rewrite map_length, seq_length. reflexivity. Qed.
Lemma multiplied_len codes row : length (multiplied codes row) = length row.
Proof. unfold multiplied. rewrite map_length, seq_length. reflexivity. Qed.
Lemma multiplied_at codes row c : 0 <= c < Z.of_nat (length row) -> In c codes -> nth (Z.to_nat c) (multiplied codes row) f0 = fmul (nth (Z.to_nat c) row f0) f1.
Proof.
  intros Hc Hin. unfold multiplied. rewrite nth_map_seq by lia. rewrite Z2Nat.id by lia. apply existsb_in in Hin. rewrite Hin. reflexivity.
Qed.

Lemma probs_parallel_rows tsum (policy : list (list f32)) codes rs : length codes = length policy -> (forall cs, In cs codes -> NoDup cs) ->
  probs_tensor_parallel (num32 tsum) policy (seq 0 (length policy)) codes = Ok rs ->
  forall i row cs, nth_error policy i = Some row -> nth_error codes i = Some cs ->
    nth_error rs i = Some (map (fun x => fdiv x (tsum (multiplied cs row))) (multiplied cs row)).
Proof.
  intros HLc HN. unfold probs_tensor_parallel. rewrite put2_puts2. rewrite <- HLc. change (V (num32 tsum)) with f32. cbn [num32 v0 v1 vmul vdiv vsum].
  set (xy := flat_map _ _).
  assert (Hxy : combine xy (map (fun _ => f1) xy) = flat_map (fun ic => map (fun cv => ((Z.of_nat (fst ic), fst cv), snd cv)) (snd ic))
      (combine (seq 0 (length (map (map (fun c => (c, f1))) codes))) (map (map (fun c => (c, f1))) codes))).
  { unfold xy. rewrite map_length. generalize 0%nat as k. clear. induction codes as [|cs codes IH]; intros k; cbn [length seq combine flat_map map]; [reflexivity|].
    rewrite map_app. rewrite <- IH. cbn [fst snd].
    assert (Hca : forall (X Y : Type) (a b : list X) (c d : list Y), length a = length c -> combine (a ++ b) (c ++ d) = combine a c ++ combine b d).
    { induction a as [|x a IHa]; intros b [|y c] d H; try discriminate; [reflexivity|]. cbn. f_equal. apply IHa. cbn in H. lia. }
    rewrite Hca by (rewrite !map_length; reflexivity). f_equal. rewrite !map_map.
    clear. induction cs as [|c cs IHc]; [reflexivity|]. cbn [map combine fst snd]. f_equal. exact IHc. }
  rewrite Hxy. destruct (puts2 _ _) as [m|] eqn:E; cbn [bind]; [|discriminate]. intros [= <-] i row cs Erow Ecs.
  destruct (puts2_rows _ _ _ _ E) as [_ Hrows].
  destruct (Hrows i (map (fun _ => f0) row)) as (mask & Em & Ep); [rewrite nth_error_map, Erow; reflexivity|].
  rewrite of_row_numbered in Ep. cbn [Nat.leb] in Ep. rewrite Nat.sub_0_r in Ep.
  rewrite (nth_error_nth (map (map (fun c => (c, f1))) codes) i [] (x := map (fun c => (c, f1)) cs)) in Ep by (rewrite nth_error_map, Ecs; reflexivity).
  destruct (puts_inv _ f0 _ _ _ Ep) as (HLm & Hoff & Hon). rewrite map_length in HLm.
  assert (Hfst : map fst (map (fun c => (c, f1)) cs) = cs) by (rewrite map_map; apply map_id). rewrite Hfst in *.
  specialize (Hon (HN cs (nth_error_In _ _ Ecs))).
  assert (Hsel : map (fun ab => fmul (fst ab) (snd ab)) (combine row mask) = multiplied cs row).
  { assert (HLs : length (map (fun ab => fmul (fst ab) (snd ab)) (combine row mask)) = length row) by (rewrite map_length, combine_length, HLm; lia).
    apply (list_eq_nth _ f0); [rewrite multiplied_len; exact HLs|]. intros j Hj. rewrite HLs in Hj. unfold multiplied. rewrite nth_map_seq by lia.
    rewrite (nth_map_lt _ _ (f0, f0)) by (rewrite combine_length, HLm; lia). rewrite combine_nth by lia. cbn [fst snd]. f_equal.
    destruct (existsb (Z.eqb (Z.of_nat j)) cs) eqn:Ej.
    - apply existsb_in in Ej. destruct (Hon (Z.of_nat j) f1) as [_ H1]; [apply in_map_iff; eauto|]. rewrite Nat2Z.id in H1. exact H1.
    - rewrite Hoff; [rewrite map_const; apply nth_repeat_any|]. intros Hin. apply existsb_in in Hin. congruence. }
  rewrite nth_error_map. replace (nth_error (map _ (combine policy m)) i) with (Some (multiplied cs row)); [reflexivity|].
  rewrite <- Hsel. rewrite nth_error_map. replace (nth_error (combine policy m) i) with (Some (row, mask)); [reflexivity|].
  clear -Erow Em. revert m i Erow Em. induction policy as [|a policy IH]; intros [|b m] [|i] H1 H2; cbn in *; try discriminate; [congruence|]. apply IH; assumption.
Qed.

Section T.
  Variable G : Game.
  Variable I : St G -> Prop.
  Hypothesis HA : alpha_game G I.
  Variable tsum : list f32 -> f32.
  Variable nt : net.
  Hypothesis HNet : net_ok G nt.
  Variable cfg : mcfg.
  Variable noise : list f32.
  Variable roots : list (St G).
  Implicit Types (st : store G) (n : node G).
  Notation inv := (inv G I roots).
  Notation grows := (grows G).

  Definition base (j : nat) : f32 := if (j <? length roots)%nat then f1 else f0.
  Definition priors st : Prop := forall i n p pn, nth_error st i = Some n -> n_parent n = Some p -> nth_error st p = Some pn ->
    prior_ok nt tsum (dir_eps cfg) noise roots p (n_state pn) n.
  Record traced st (log : list (nat * f32)) : Prop := {
    tr_within : within st log;
    tr_acc : accounted base st log;
    tr_origin : forall i v, In (i, v) log -> origin nt roots st i v;
    tr_priors : priors st
  }.

  Lemma origin_grows st st' i v : grows st st' -> origin nt roots st i v -> origin nt roots st' i v.
  Proof.
    intros (HL & HN & HP) (n & En & H). destruct (HN i n En) as (n' & En' & Hs & _). exists n'. split; [exact En'|]. rewrite Hs.
    destruct H as [(g & s & w & [Hg Ho] & Hr & Hw & Hv)|H]; [left|right; exact H].
    exists g, s, w. split; [|auto]. split; [exact Hg|]. apply HP; [eapply nth_error_lt; exact En|exact Ho].
  Qed.
  Lemma prior_same p s n n' : n_action n' = n_action n -> n_policy n' = n_policy n ->
    prior_ok nt tsum (dir_eps cfg) noise roots p s n -> prior_ok nt tsum (dir_eps cfg) noise roots p s n'.
  Proof.
    intros H1 H2 (a & c & vm & codes & row & v & Ha & Hr). exists a, c, vm, codes, row, v. rewrite H1, H2. auto.
  Qed.
  (** nodes that were there keep their priors *)
  Lemma priors_old st st' i n p pn : inv st -> grows st st' -> priors st -> (i < length st)%nat ->
    nth_error st' i = Some n -> n_parent n = Some p -> nth_error st' p = Some pn -> prior_ok nt tsum (dir_eps cfg) noise roots p (n_state pn) n.
  Proof.
    intros HV (HL & HN & HP) HPr Hi En Hp Ep. destruct (nth_error_ex _ st i Hi) as [n0 En0].
    destruct (HN i n0 En0) as (n1 & En1 & Hs & Hpar & Hact & Hidx & Hpol & _). rewrite En in En1. injection En1 as <-.
    rewrite Hpar in Hp. pose proof (forest_parents_down _ _ _ (proj1 HV) _ _ _ En0 Hp) as Hlt.
    destruct (nth_error_ex _ st p ltac:(lia)) as [p0 Ep0]. destruct (HN p p0 Ep0) as (p1 & Ep1 & Hsp & _). rewrite Ep in Ep1. injection Ep1 as <-.
    rewrite Hsp. eapply prior_same; [exact Hact|exact Hpol|]. eapply HPr; eassumption.
  Qed.

  Lemma traced_backprop st log i v st' : inv st -> (i < length st)%nat -> traced st log -> origin nt roots st i v ->
    backpropagate i v st = Ok st' -> traced st' (log ++ [(i, v)]) /\ inv st' /\ grows st st' /\ shape_eq G st st'.
  Proof.
    intros HV Hi [HW HAc HO HP] Ho Eb. pose proof (forest_parents_down _ _ _ (proj1 HV)) as HPd.
    destruct (accounted_backprop G base st log i v st' HPd Hi HW HAc Eb) as (HAc' & HS & HW').
    destruct (backprop_all G I roots st i v HV Hi) as (st2 & Eb2 & _ & HN). rewrite Eb in Eb2. injection Eb2 as <-.
    assert (HG : grows st st').
    { apply (bumped_grows G st st' (fun j => if pathb G st i j then Some v else None) HS). intros j n En. rewrite (HN j n En). destruct (pathb G st i j); reflexivity. }
    split; [|split; [eapply inv_shape; eassumption|split; [exact HG|exact HS]]]. constructor; [exact HW'|exact HAc'| |].
    - intros k u Hin. apply in_app_or in Hin. eapply origin_grows; [exact HG|]. destruct Hin as [Hin|[[= <- <-]|[]]]; [apply HO; exact Hin|exact Ho].
    - intros k n p pn En Hp Ep. eapply (priors_old st st' k); try eassumption. rewrite (shape_eq_length _ _ _ HS). eapply nth_error_lt. exact En.
  Qed.

  (** ** selection *)
  Lemma outcome_score_any pl w : -127 <= pl <= 127 -> outcome G pl w = Ok (f32_of_Z (if w =? pl then 1 else if w =? - pl then -1 else 0)).
  Proof. intros H. unfold outcome. destruct (w =? pl); [reflexivity|]. rewrite i8_ok by lia. cbn [bind]. destruct (w =? - pl); reflexivity. Qed.
  Lemma select_traced st sel flag g log st' sel' flag' : inv st -> (g < length roots)%nat -> traced st log ->
    par_select cfg (st, sel, flag) g = Ok (st', sel', flag') ->
    exists log', traced st' (log ++ log') /\ inv st' /\ shape_eq G st st'.
  Proof.
    intros HV Hg HT H. destruct (pick_spec G I HA cfg roots st g HV Hg) as (i & n & o & _ & Es & En & _ & Ho & _).
    unfold par_select in H. rewrite Es in H. cbn [bind] in H. unfold get_node in H. rewrite En in H. cbn [bind] in H.
    destruct (g_winner G (n_state n)) as [w|] eqn:Ew.
    - destruct (forest_root_lt _ _ _ _ (proj1 HV) Hg) as (root & s & Er & Es' & _ & Hs).
      rewrite Er in H. cbn [bind] in H.
      assert (HIr : -127 <= g_player G (n_state root) <= 127) by (eapply ag_player; [exact HA|]; eapply all_I_nth; [apply HV|exact Er]).
      rewrite outcome_score_any in H by exact HIr. cbn [bind] in H. set (v := f32_of_Z _) in H.
      destruct (backpropagate i v st) as [st1|] eqn:Eb; cbn [bind] in H; [|discriminate]. injection H as <- <- <-.
      destruct (traced_backprop st log i v st1 HV (nth_error_lt _ _ _ _ En) HT) as (HT' & HV' & _ & HS); [|exact Eb|exists [(i, v)]; auto].
      exists n. split; [exact En|]. left. exists g, (n_state root), w. split; [exact Ho|]. split; [|split; [exact Ew|]].
      + destruct (fo_roots _ _ _ (proj1 HV) g s Es') as (root' & Er' & _ & _ & Hrs). rewrite Er in Er'. injection Er' as <-. congruence.
      + unfold v, score. rewrite Ew. reflexivity.
    - destruct (upd sel (Z.of_nat g) (n_idx n)) as [sel1|]; cbn [bind] in H; [|discriminate]. injection H as <- <- <-.
      exists []. rewrite app_nil_r. split; [exact HT|]. split; [exact HV|apply shape_eq_refl].
  Qed.
  Lemma select_fold_traced : forall order st sel flag log st' sel' flag', inv st -> (forall g, In g order -> (g < length roots)%nat) -> traced st log ->
    mfold (par_select cfg) order (st, sel, flag) = Ok (st', sel', flag') ->
    exists log', traced st' (log ++ log') /\ inv st' /\ shape_eq G st st'.
  Proof.
    induction order as [|g order IH]; intros st sel flag log st' sel' flag' HV Hlt HT H.
    - injection H as <- <- <-. exists []. rewrite app_nil_r. split; [exact HT|]. split; [exact HV|apply shape_eq_refl].
    - cbn [mfold] in H. destruct (par_select cfg (st, sel, flag) g) as [[[st1 sel1] flag1]|] eqn:E1; cbn [bind] in H; [|discriminate].
      destruct (select_traced _ _ _ _ _ _ _ _ HV (Hlt g (or_introl eq_refl)) HT E1) as (l1 & HT1 & HV1 & HS1).
      destruct (IH _ _ _ _ _ _ _ HV1 ltac:(intros h Hh; apply Hlt; right; exact Hh) HT1 H) as (l2 & HT2 & HV2 & HS2).
      exists (l1 ++ l2). rewrite app_assoc. split; [exact HT2|]. split; [exact HV2|eapply shape_eq_trans; eassumption].
  Qed.

  (** ** expansion *)
  Lemma codes_exp st i n : inv st -> nth_error st i = Some n -> n_exp n <> [] ->
    exists codes, g_valid G (n_state n) = Ok (n_exp n) /\ encode_all (n_state n) (n_exp n) = Ok codes /\ NoDup codes
      /\ (forall c, In c codes -> 0 <= c < Z.of_nat (asize G)).
  Proof.
    intros [HF HI] En Hne. destruct (fo_moves _ _ _ HF _ _ En) as (vm & Hv & [[_ He]|[He _]]); [|congruence].
    destruct (codes_of G I HA _ vm (all_I_nth _ _ _ _ _ HI En) Hv) as (codes & E & HN & Hr & _). exists codes. rewrite He.
    split; [exact Hv|]. split; [exact E|]. split; [exact HN|]. intros c Hc. rewrite (asize_Z G I HA). apply Hr. exact Hc.
  Qed.
  Lemma mmap_in (A B : Type) (f : A -> res B) l ys a y : mmap f l = Ok ys -> In a l -> f a = Ok y -> In y ys.
  Proof.
    intros H Ha Hy. apply mmap_ok_in in H. destruct (forall2_in_l _ _ _ _ _ _ H Ha) as (y' & Hin & E). congruence.
  Qed.
  Lemma n_exp_new prior n st r n' st' r' : alpha_expand_with prior n st r = Ok (n', st', r') -> n_exp n = [] -> length st' = length st.
  Proof.
    intros H He. unfold alpha_expand_with in H. rewrite He in H. cbn [alpha_expand_loop bind] in H. unfold set_node in H. cbn [n_idx] in H.
    destruct (n_idx n <? length st)%nat; cbn [bind] in H; [|discriminate]. injection H as _ <- _. apply length_set_nth.
  Qed.

  (** one entry of the batch *)
  Definition opened st : Prop := forall g, (g < length roots)%nat -> exists n, nth_error st g = Some n /\ n_exp n = [].
  Lemma opened_grows st st' : grows st st' -> opened st -> opened st'.
  Proof.
    intros (_ & HN & _) H g Hg. destruct (H g Hg) as (n & En & He). destruct (HN g n En) as (n' & En' & _ & _ & _ & _ & _ & _ & H7 & _).
    exists n'. split; [exact En'|]. apply H7. exact He.
  Qed.
  Lemma process_traced ss x sh st log r k i n st' r' : inv st -> opened st -> batch ss = Ok x -> shape x = length ss :: sh ->
    nth_error st i = Some n -> nth_error ss k = Some (n_state n) -> traced st log ->
    par_process tsum (net_policy nt x) (net_value nt x) (st, r) (k, i) = Ok (st', r') ->
    exists v, traced st' (log ++ [(i, v)]).
  Proof.
    intros HV HOp Ex Hsh En Ek HT H. pose proof (nth_error_lt _ _ _ _ Ek) as Hk. pose proof (nth_error_lt _ _ _ _ En) as Hi.
    destruct (HNet x (length ss) sh Hsh) as (Sp & Lp & Sv & Lv).
    unfold par_process in H. unfold get_node in H. rewrite En in H. cbn [bind] in H.
    rewrite (select0_row _ _ _ _ _ Sp Hk), (select0_row _ _ _ _ _ Sv Hk) in H. cbn [bind] in H.
    set (row := firstn (asize G) (skipn (k * asize G) (data (net_policy nt x)))) in *.
    assert (HLrow : length row = asize G) by (apply (firstn_skipn_len _ _ _ _ (length ss)); assumption).
    destruct (turn_policy_to_probs_tensor tsum _ n) as [prob|] eqn:Epr; cbn [bind] in H; [|discriminate].
    destruct (alpha_expand_tensor prob n st r) as [[[n' st1] r1]|] eqn:Exp; cbn [bind] in H; [|discriminate].
    set (vt := {| shape := [1%nat]; data := firstn 1 (skipn (k * 1) (data (net_value nt x))) |} : tensor f32) in *.
    assert (Hv : exists v, nth_error (data (net_value nt x)) k = Some v /\ double_value vt [0%nat] = Ok v).
    { destruct (nth_error_ex _ (data (net_value nt x)) k ltac:(lia)) as [v Ev]. exists v. split; [exact Ev|].
      assert (Hd : data vt = [v]).
      { cbn [data vt]. rewrite Nat.mul_1_r. apply nth_error_split in Ev. destruct Ev as (l1 & l2 & -> & <-). rewrite skipn_app, skipn_all, Nat.sub_diag. reflexivity. }
      rewrite (double_value_1 _ f0 _ 1); [rewrite Hd; reflexivity|reflexivity|rewrite Hd; reflexivity|lia]. }
    destruct Hv as (v & Ev & Edv). rewrite Edv in H. cbn [bind] in H.
    assert (Hevd : evaluated nt ss k (n_state n) row v).
    { exists x. split; [exact Ex|]. split; [exact Ek|]. split; [|exact Ev]. apply (rows_nth _ _ _ _ _ Sp Hk). }
    destruct (expand_all G I HA roots st i n n _ r n' st1 r1 HV En (same_shape_refl _ _) ltac:(auto) ltac:(auto) Exp) as (HV1 & HG1 & _ & Hold & Hni & Hn' & Hnew).
    assert (Hidx : n_idx n = i) by (eapply fo_idx; [apply HV|exact En]). rewrite Hidx in H.
    destruct (backpropagate i v st1) as [st2|] eqn:Eb; cbn [bind] in H; [|discriminate]. injection H as <- <-.
    exists v. destruct HT as [HW HAc HO HPr]. pose proof (forest_parents_down _ _ _ (proj1 HV)) as HPd.
    assert (HLr : (length roots <= length st)%nat).
    { destruct (Nat.le_gt_cases (length roots) (length st)) as [Hle|Hgt]; [exact Hle|].
      destruct (forest_root_lt _ _ _ _ (proj1 HV) Hgt) as (m & s & Em & _). apply nth_error_lt in Em. lia. }
    assert (HL1 : (length st <= length st1)%nat) by apply HG1.
    assert (HT1 : traced st1 log).
    { constructor.
      - intros e He. specialize (HW e He). lia.
      - apply (accounted_ext G _ st); try assumption.
        + intros j m Em Hj. destruct (Nat.eq_dec j i) as [->|Hne]; [|exists m; rewrite Hold in Em by assumption; auto].
          rewrite Hni in Em. injection Em as <-. exists n. rewrite Hn'. auto.
        + intros j m Em Hj. destruct (Hnew j m Em Hj) as (a & code & u & _ & _ & Hvis & Hval & _). split; [|exact Hval].
          unfold base. destruct (Nat.ltb_spec j (length roots)); [lia|exact Hvis].
        + apply HG1.
      - intros j u Hin. eapply origin_grows; [exact HG1|]. apply HO. exact Hin.
      - intros j m p pn Em Hp Ep. destruct (Nat.lt_ge_cases j (length st)) as [Hj|Hj]; [eapply (priors_old st st1 j); eassumption|].
        destruct (Hnew j m Em Hj) as (a & code & u & Hpar & _ & _ & _ & Hact & Henc & Hpri & Hpol). rewrite Hpar in Hp. injection Hp as <-.
        rewrite Hni in Ep. injection Ep as <-. assert (Hs' : n_state n' = n_state n) by (rewrite Hn'; reflexivity). rewrite Hs'.
        assert (Hne : n_exp n <> []).
        { intros He. rewrite He in Hn'. apply nth_error_lt in Em. pose proof (n_exp_new _ _ _ _ _ _ _ Exp He). lia. }
        assert (Hir : (length roots <= i)%nat).
        { destruct (Nat.le_gt_cases (length roots) i) as [Hle|Hgt]; [exact Hle|]. destruct (HOp i Hgt) as (m0 & Em0 & He0). congruence. }
        destruct (codes_exp st i n HV En Hne) as (codes & Hval & Hcodes & HND & Hrng).
        assert (Ha : In a (n_exp n)).
        { destruct (fo_parent _ _ _ (proj1 HV1) _ _ Em ltac:(lia)) as (p' & pn' & a' & vm & ra & rb & Hp' & _ & Ep' & _ & Ha' & Hv' & Hin' & _).
          rewrite Hpar in Hp'. injection Hp' as <-. rewrite Hni in Ep'. injection Ep' as <-. rewrite Hs', Hval in Hv'. injection Hv' as <-. congruence. }
        exists a, code, (n_exp n), codes, row, v. split; [exact Hact|]. split; [exact Hval|]. split; [exact Hcodes|]. split; [exact Henc|].
        assert (Hin : In code codes) by (eapply mmap_in; eassumption). split; [exact Hin|]. right. split; [exact Hir|]. split; [exists ss, k; exact Hevd|].
        rewrite Hpol. unfold turn_policy_to_probs_tensor in Epr. rewrite Hcodes in Epr. cbn [bind data shape] in Epr.
        destruct (probs_tensor (num32 tsum) row codes) as [p|] eqn:Ept; cbn [bind] in Epr; [|discriminate]. injection Epr as <-.
        pose proof (probs_tensor_masked tsum row codes p HND Ept) as Hp. pose proof (Hrng code Hin) as Hc.
        assert (HLp : length p = asize G) by (rewrite Hp, map_length, masked_len; exact HLrow).
        rewrite (double_value_1 _ f0 _ (asize G)) in Hpri; [|reflexivity|exact HLp|lia]. injection Hpri as <-. cbn [data]. rewrite Hp.
        rewrite (nth_map_lt _ _ f0) by (rewrite masked_len; lia). unfold share. f_equal. apply masked_at; [lia|exact Hin]. }
    destruct (traced_backprop st1 log i v st2 HV1 ltac:(lia) HT1) as (HT2 & _); [|exact Eb|exact HT2].
    exists n'. split; [exact Hni|]. right. rewrite Hn'. cbn [n_state expanded]. eauto.
  Qed.

  Lemma process_fold_traced ss x sh : batch ss = Ok x -> shape x = length ss :: sh -> forall es st log r st' r', inv st -> opened st ->
    (forall k i, In (k, i) es -> exists n, nth_error st i = Some n /\ nth_error ss k = Some (n_state n)) -> traced st log ->
    mfold (par_process tsum (net_policy nt x) (net_value nt x)) es (st, r) = Ok (st', r') ->
    exists log', traced st' (log ++ log').
  Proof.
    intros Ex Hsh. induction es as [|[k i] es IH]; intros st log r st' r' HV HOp Hes HT H.
    - injection H as <- <-. exists []. rewrite app_nil_r. exact HT.
    - cbn [mfold] in H. destruct (par_process tsum (net_policy nt x) (net_value nt x) (st, r) (k, i)) as [[st1 r1]|] eqn:E1; cbn [bind] in H; [|discriminate].
      destruct (Hes k i (or_introl eq_refl)) as (n & En & Ek).
      destruct (process_traced ss x sh st log r k i n st1 r1 HV HOp Ex Hsh En Ek HT E1) as (v & HT1).
      destruct (par_process_inv G I HA tsum roots _ _ _ _ _ _ _ _ HV (nth_error_lt _ _ _ _ En) E1) as (HV1 & HG1 & _).
      destruct (IH st1 (log ++ [(i, v)]) r1 st' r' HV1 (opened_grows _ _ HG1 HOp)) as (l2 & HT2); [|exact HT1|exact H|].
      + intros k' i' Hin. destruct (Hes k' i' (or_intror Hin)) as (m & Em & Ek'). destruct HG1 as (_ & HN & _). destruct (HN _ _ Em) as (m' & Em' & Hs & _).
        exists m'. rewrite Hs. auto.
      + exists ((i, v) :: l2). rewrite <- app_assoc in HT2. exact HT2.
  Qed.

  (** ** iterations *)
  Lemma in_combine_seq (A : Type) (l : list A) : forall a k i, In (k, i) (combine (seq a (length l)) l) -> nth_error l (k - a) = Some i /\ (a <= k)%nat.
  Proof.
    induction l as [|x l IH]; intros a k i H; [destruct H|]. cbn [length seq combine] in H. destruct H as [[= <- <-]|H].
    - rewrite Nat.sub_diag. split; [reflexivity|lia].
    - destruct (IH _ _ _ H) as [H1 H2]. split; [|lia]. replace (k - a)%nat with (S (k - S a)) by lia. exact H1.
  Qed.
  Lemma iter_traced order st sel r log st' sel' r' : roots <> [] -> inv st -> opened st -> sel_ok G roots st sel -> Permutation order (seq 0 (length roots)) ->
    traced st log -> par_iter tsum nt cfg order (st, sel, r) = Ok (st', sel', r') ->
    exists log', traced st' (log ++ log').
  Proof.
    intros Hne HV HOp Hsel HP HT H.
    destruct (par_iter_spec G I HA cfg roots order st sel HV Hsel HP) as (st1 & sel1 & flag & E & HV1 & HG1 & _ & HS & Hsel1 & _).
    unfold par_iter in H. rewrite E in H. cbn [bind] in H.
    destruct (select_fold_traced order st sel false log st1 sel1 flag HV) as (l1 & HT1 & _); [|exact HT|exact E|].
    { intros g Hg. apply (Permutation_in _ HP) in Hg. apply in_seq in Hg. lia. }
    destruct flag; [|injection H as <- <- <-; exists l1; exact HT1].
    destruct (mmap _ sel1) as [ss|] eqn:Ess; cbn [bind] in H; [|discriminate].
    destruct (batch ss) as [x|] eqn:Ex; cbn [bind] in H; [|discriminate].
    destruct (mfold _ (combine _ _) _) as [[st2 r2]|] eqn:E2; cbn [bind] in H; [|discriminate]. injection H as <- <- <-.
    apply mmap_ok_in in Ess. pose proof (forall2_len _ _ _ _ _ Ess) as HLs. destruct Hsel1 as [HL1 Hs1].
    assert (Hss : forall k i, nth_error sel1 k = Some i -> exists n, nth_error st1 i = Some n /\ nth_error ss k = Some (n_state n)).
    { clear -Ess. induction Ess as [|i s sel1 ss His HF IH]; intros [|k] j Ek; try discriminate; cbn [nth_error] in *; [|apply IH; exact Ek].
      injection Ek as ->. unfold get_node in His. destruct (nth_error st1 j) as [n|]; cbn [bind] in His; [|discriminate]. injection His as <-. eauto. }
    destruct (ag_tensor _ _ HA) as [sh Hsh].
    destruct (batch_ok G sh ss) as (x' & Ex' & Hx).
    { intros ->. cbn in HLs. destruct roots; [congruence|]. cbn in HL1. lia. }
    { intros s Hs. apply Hsh. destruct (forall2_in_r _ _ _ _ _ _ Ess Hs) as (i & Hi & Ei). unfold get_node in Ei.
      destruct (nth_error st1 i) as [n|] eqn:En; cbn [bind] in Ei; [|discriminate]. injection Ei as <-. eapply all_I_nth; [apply HV1|exact En]. }
    rewrite Ex in Ex'. injection Ex' as <-.
    destruct (process_fold_traced ss x sh Ex Hx (combine (seq 0 (length sel1)) sel1) st1 (log ++ l1) r st2 r2 HV1 (opened_grows _ _ HG1 HOp)) as (l2 & HT2); [|exact HT1|exact E2|].
    { intros k i Hin. apply Hss. destruct (in_combine_seq _ _ _ _ _ Hin) as [H0 _]. rewrite Nat.sub_0_r in H0. exact H0. }
    exists (l1 ++ l2). rewrite app_assoc. exact HT2.
  Qed.
  Lemma loop_traced order : roots <> [] -> Permutation order (seq 0 (length roots)) -> forall k st sel r log st' sel' r', inv st -> opened st ->
    sel_ok G roots st sel -> traced st log -> par_loop tsum nt cfg k order (st, sel, r) = Ok (st', sel', r') -> exists log', traced st' (log ++ log').
  Proof.
    intros Hne HP. induction k as [|k IH]; intros st sel r log st' sel' r' HV HOp Hs HT H; cbn [par_loop] in H.
    - injection H as <- <- <-. exists []. rewrite app_nil_r. exact HT.
    - destruct (par_iter tsum nt cfg order (st, sel, r)) as [[[st1 sel1] r1]|] eqn:E; cbn [bind] in H; [|discriminate].
      destruct (iter_traced _ _ _ _ _ _ _ _ Hne HV HOp Hs HP HT E) as (l1 & HT1).
      destruct (par_iter_inv G I HA tsum nt cfg roots order st sel r st1 sel1 r1 HV Hs HP E) as (HV1 & HG1 & _ & Hs1 & _).
      destruct (IH _ _ _ _ _ _ _ HV1 (opened_grows _ _ HG1 HOp) Hs1 HT1 H) as (l2 & HT2). exists (l1 ++ l2). rewrite app_assoc. exact HT2.
  Qed.

  (** ** the start *)
  Lemma expand_roots_priors prob rs : shape prob = [length roots; asize G] -> data prob = concat rs -> length rs = length roots ->
    (forall row, In row rs -> length row = asize G) ->
    forall l st r st' r', inv st -> NoDup l -> (forall i, In i l -> (i < length roots)%nat) ->
    mfold (par_expand_root prob) l (st, r) = Ok (st', r') ->
    grows st st' /\ (forall j, ~ In j l -> (j < length st)%nat -> nth_error st' j = nth_error st j)
    /\ (forall j m, nth_error st' j = Some m -> (length st <= j)%nat -> exists i ni a code row, In i l /\ n_parent m = Some i /\ nth_error st i = Some ni
       /\ n_value m = f0 /\ n_action m = Some a /\ In a (n_exp ni) /\ g_encode G (n_state ni) a = Ok code /\ nth_error rs i = Some row /\ n_policy m = nth (Z.to_nat code) row f0).
  Proof.
    intros Hs Hd HLr Hrow. induction l as [|i l IH]; intros st r st' r' HV HN Hlt H.
    - injection H as <- <-. split; [apply grows_refl|]. split; [reflexivity|]. intros j m Em Hj. apply nth_error_lt in Em. lia.
    - cbn [mfold] in H. destruct (par_expand_root prob (st, r) i) as [[st1 r1]|] eqn:E1; cbn [bind] in H; [|discriminate].
      inversion HN as [|? ? Hnin HN']; subst. pose proof (Hlt i (or_introl eq_refl)) as Hil.
      unfold par_expand_root in E1. destruct (forest_root_lt _ _ _ _ (proj1 HV) Hil) as (n & s & En & _).
      unfold get_node in E1. rewrite En in E1. cbn [bind] in E1.
      rewrite (select0_row _ _ _ _ _ Hs Hil) in E1. cbn [bind] in E1.
      set (n1 := mkNode (n_state n) (n_idx n) (n_parent n) (n_children n) f1 (n_value n) (n_policy n) (n_action n) (n_exp n)) in *.
      destruct (alpha_expand_tensor _ n1 st r) as [[[n' st1'] r1']|] eqn:Exp; cbn [bind] in E1; [|discriminate]. injection E1 as <- <-.
      destruct (expand_all G I HA roots st i n n1 _ r n' st1' r1' HV En ltac:(repeat split)
          ltac:(intros _; right; exact poscounter1) ltac:(intros _; exact poscounter1) Exp) as (HV1 & HG1 & _ & Hold & Hni & Hn' & Hnew).
      assert (HL1 : (length st <= length st1')%nat) by apply HG1.
      assert (Hltst : forall j, In j (i :: l) -> (j < length st)%nat).
      { intros j Hj. destruct (forest_root_lt _ _ _ _ (proj1 HV) (Hlt j Hj)) as (m & s' & Em & _). eapply nth_error_lt. exact Em. }
      destruct (IH st1' r1' st' r' HV1 HN') as (HG2 & Hold2 & Hnew2); [intros j Hj; apply Hlt; right; exact Hj|exact H|].
      split; [eapply grows_trans; eassumption|]. split.
      { intros j Hj Hjl. rewrite Hold2; [|intros Hin; apply Hj; right; exact Hin|lia]. apply Hold; [exact Hjl|intros ->; apply Hj; left; reflexivity]. }
      intros j m Em Hj. destruct (Nat.lt_ge_cases j (length st1')) as [Hj1|Hj1].
      + destruct (nth_error_ex _ st1' j Hj1) as [m1 Em1]. destruct (Hnew j m1 Em1 Hj) as (a & code & v & Hpar & _ & _ & Hval & Hact & Henc & Hpri & Hpol).
        assert (HLr0 : (length roots <= length st)%nat).
        { destruct (Nat.le_gt_cases (length roots) (length st)) as [Hle|Hgt]; [exact Hle|].
          destruct (forest_root_lt _ _ _ _ (proj1 HV) Hgt) as (m0 & s0 & Em0 & _). apply nth_error_lt in Em0. lia. }
        destruct (nth_error_ex _ rs i ltac:(lia)) as [row Er].
        destruct (fo_parent _ _ _ (proj1 HV1) _ _ Em1 ltac:(lia)) as (p' & pn' & a' & vm & ra & rb & Hp' & _ & Ep' & _ & Ha' & Hv' & Hin' & _).
        rewrite Hpar in Hp'. injection Hp' as <-. rewrite Hni in Ep'. injection Ep' as <-. assert (a' = a) as -> by congruence.
        assert (Hs' : n_state n' = n_state n) by (rewrite Hn'; reflexivity). rewrite Hs' in Hv'.
        assert (Hne : n_exp n <> []).
        { intros He. pose proof (n_exp_new _ _ _ _ _ _ _ Exp He). lia. }
        destruct (codes_exp st i n HV En Hne) as (codes & Hvl & Hcodes & HND & Hrng). rewrite Hvl in Hv'. injection Hv' as <-.
        assert (Hc : In code codes) by (eapply mmap_in; [exact Hcodes|exact Hin'|exact Henc]). specialize (Hrng code Hc).
        assert (Hm : n_parent m = n_parent m1 /\ n_action m = n_action m1 /\ n_policy m = n_policy m1 /\ n_value m = f0).
        { rewrite Hold2, Em1 in Em; [injection Em as <-; auto| |exact Hj1]. intros Hin. specialize (Hltst j (or_intror Hin)). lia. }
        destruct Hm as (M1 & M2 & M3 & M4).
        exists i, n, a, code, row. split; [left; reflexivity|]. split; [congruence|]. split; [exact En|]. split; [exact M4|].
        split; [congruence|]. split; [exact Hin'|]. split; [exact Henc|]. split; [exact Er|]. rewrite M3, Hpol.
        rewrite (double_value_1 _ f0 _ (asize G)) in Hpri.
        * injection Hpri as <-. cbn [data]. rewrite Hd, (concat_row _ _ _ Hrow _ _ Er). reflexivity.
        * reflexivity.
        * cbn [data]. rewrite Hd, (concat_row _ _ _ Hrow _ _ Er). apply Hrow. eapply nth_error_In. exact Er.
        * lia.
      + destruct (Hnew2 j m Em Hj1) as (i' & ni & a & code & row & Hi' & Hpar & Eni & Hrest). exists i', ni, a, code, row.
        split; [right; exact Hi'|]. split; [exact Hpar|]. split; [|exact Hrest]. rewrite Hold in Eni; [exact Eni|apply Hltst; right; exact Hi'|intros ->; contradiction].
  Qed.
End T.

Section S.
  Variable G : Game.
  Variable I : St G -> Prop.
  Hypothesis HA : alpha_game G I.
  Variable tsum : list f32 -> f32.
  Variable dirichlet : nat -> f32 -> rng -> list f32 * rng.
  Variable nt : net.
  Hypothesis HNet : net_ok G nt.
  Hypothesis Hdir : forall k a rr, length (fst (dirichlet k a rr)) = k.
  Variable cfg : mcfg.
  Implicit Types (st : store G) (n : node G).

  Lemma init_traced ss r st r' : (forall s, In s ss -> I s) -> par_init tsum dirichlet nt cfg ss r = Ok (st, r') ->
    traced G tsum nt cfg (fst (dirichlet (asize G) (dir_alpha cfg) r)) ss st [] /\ opened G ss st.
  Proof.
    intros HI H. destruct (par_init_inv G I HA tsum dirichlet nt cfg ss r st r' H HI) as (HV & HC & HR & Hnv).
    pose proof (par_init_nonempty G tsum dirichlet nt cfg ss r st r' H) as Hne.
    unfold par_init in H. destruct (batch ss) as [x|] eqn:Ex; cbn [bind] in H; [|discriminate].
    destruct (ag_tensor _ _ HA) as [sh Hsh].
    destruct (batch_ok G sh ss Hne ltac:(intros s Hs; apply Hsh, HI, Hs)) as (x' & Ex' & Hx). rewrite Ex in Ex'. injection Ex' as <-.
    destruct (HNet x (length ss) sh Hx) as (Sp & Lp & Sv & Lv).
    unfold apply_dirichlet in H. rewrite Sp in H. destruct (dirichlet_new (asize G) (dir_alpha cfg)) as [[]|]; cbn [bind] in H; [|discriminate].
    destruct (dirichlet (asize G) (dir_alpha cfg) r) as [sample r1] eqn:Ed. cbn [bind fst] in *.
    assert (HLs : length sample = asize G) by (specialize (Hdir (asize G) (dir_alpha cfg) r); rewrite Ed in Hdir; exact Hdir).
    destruct (par_roots ss) as [st0|] eqn:Er; cbn [bind] in H; [|discriminate].
    fold (noisy (dir_eps cfg) sample) in H.
    change (map _ (rows (net_policy nt x))) with (map (noisy (dir_eps cfg) sample) (rows (net_policy nt x))) in H.
    set (pol := map (noisy (dir_eps cfg) sample) (rows (net_policy nt x))) in *.
    set (dir := mkT [length ss; asize G] (concat pol) : tensor f32) in *.
    assert (Hpl : forall row, In row pol -> length row = asize G).
    { intros row Hr. apply in_map_iff in Hr. destruct Hr as (row0 & <- & Hr0). unfold noisy. rewrite map_length, combine_length.
      rewrite (rows_row_len _ _ _ _ Sp Lp row0 Hr0), HLs. lia. }
    assert (HLpol : length pol = length ss) by (unfold pol; rewrite map_length, (rows_len _ _ _ _ Sp); reflexivity).
    assert (Hrows : rows dir = pol).
    { apply nth_error_ext. intros i. destruct (Nat.lt_ge_cases i (length ss)) as [Hi|Hi].
      - rewrite (rows_nth _ dir (length ss) (asize G)) by (try reflexivity; exact Hi). cbn [data dir].
        destruct (nth_error_ex _ pol i ltac:(lia)) as [row Erow]. rewrite (concat_row _ _ _ Hpl _ _ Erow). symmetry. exact Erow.
      - transitivity (@None (list f32)); [|symmetry]; apply nth_error_None; [rewrite (rows_len _ dir (length ss) (asize G)) by reflexivity|]; lia. }
    destruct (turn_policy_to_probs_tensor_parallel tsum st0 (seq 0 (length ss)) dir) as [prob|] eqn:Epr; cbn [bind] in H; [|discriminate].
    destruct (roots_inv G I dirichlet ss st0 Er HI) as [HV0 _]. destruct (par_roots_inv G dirichlet ss st0 Er) as [HL0 HR0].
    unfold turn_policy_to_probs_tensor_parallel in Epr. destruct (mmap _ (seq 0 (length ss))) as [codes|] eqn:Ec; cbn [bind] in Epr; [|discriminate].
    rewrite Hrows in Epr. change (V (num32 tsum)) with f32 in Epr.
    destruct (probs_tensor_parallel (num32 tsum) pol (seq 0 (length ss)) codes) as [rs|] eqn:Ep; cbn [bind] in Epr; [|discriminate]. injection Epr as <-.
    apply mmap_ok_in in Ec. pose proof (forall2_len _ _ _ _ _ Ec) as HLc. rewrite seq_length in HLc.
    assert (Hcodes : forall i s vm, nth_error ss i = Some s -> g_valid G s = Ok vm -> exists cs, nth_error codes i = Some cs /\ encode_all s vm = Ok cs).
    { intros i s vm Es Hvm. pose proof (nth_error_lt _ _ _ _ Es) as Hi. destruct (nth_error_ex _ codes i ltac:(lia)) as [cs Ecs]. exists cs. split; [exact Ecs|].
      assert (Hcs : (n <- get_node st0 i ;; encode_all (n_state n) (n_exp n)) = Ok cs).
      { assert (Ei : nth_error (seq 0 (length ss)) i = Some i) by (rewrite nth_error_nth' with (d := 0%nat) by (rewrite seq_length; exact Hi); rewrite seq_nth by exact Hi; reflexivity).
        assert (Hgen : forall (A B : Type) (P : A -> B -> Prop) l l', Forall2 P l l' -> forall k a b, nth_error l k = Some a -> nth_error l' k = Some b -> P a b).
        { clear. induction 1 as [|a b l l' Hab HF IH]; intros [|k] c d Ec Ed; try discriminate; cbn in Ec, Ed; [congruence|eapply IH; eassumption]. }
        exact (Hgen _ _ _ _ _ Ec _ _ _ Ei Ecs). }
      destruct (HR0 i s Es) as (vm' & Hvm' & En). rewrite Hvm in Hvm'. injection Hvm' as <-. unfold get_node in Hcs. rewrite En in Hcs. exact Hcs. }
    assert (HND : forall cs, In cs codes -> NoDup cs).
    { intros cs Hcs. apply In_nth_error in Hcs. destruct Hcs as [i Ei]. pose proof (nth_error_lt _ _ _ _ Ei) as Hi. destruct (nth_error_ex _ ss i ltac:(lia)) as [s Es].
      destruct (HR0 i s Es) as (vm & Hvm & _). destruct (Hcodes i s vm Es Hvm) as (cs' & Ei' & Enc). rewrite Ei in Ei'. injection Ei' as <-.
      destruct (codes_of G I HA s vm (HI s (nth_error_In _ _ Es)) Hvm) as (cs' & Enc' & HN & _). congruence. }
    rewrite <- HLpol in Ep. pose proof (probs_parallel_rows tsum pol codes rs ltac:(lia) HND Ep) as Hrs.
    assert (HLrs : length rs = length ss).
    { unfold probs_tensor_parallel in Ep. destruct (put2 _ _ _) as [mask|] eqn:Epm; cbn [bind] in Ep; [|discriminate]. injection Ep as <-.
      rewrite put2_puts2 in Epm. destruct (puts2_rows _ _ _ _ Epm) as [HLm _]. rewrite map_length in HLm.
      rewrite !map_length, combine_length. change (V (num32 tsum)) with f32 in *. lia. }
    assert (Hrow : forall i row cs, nth_error (rows (net_policy nt x)) i = Some row -> nth_error codes i = Some cs ->
       nth_error rs i = Some (map (fun y => fdiv y (tsum (multiplied cs (noisy (dir_eps cfg) sample row)))) (multiplied cs (noisy (dir_eps cfg) sample row)))).
    { intros i row cs Erow Ecs. apply Hrs; [|exact Ecs]. unfold pol. rewrite nth_error_map, Erow. reflexivity. }
    assert (Hrl : forall row, In row rs -> length row = asize G).
    { intros row Hin. apply In_nth_error in Hin. destruct Hin as [i Ei]. pose proof (nth_error_lt _ _ _ _ Ei) as Hi.
      destruct (nth_error_ex _ pol i ltac:(lia)) as [p Epi]. destruct (nth_error_ex _ codes i ltac:(lia)) as [cs Ecs].
      rewrite (Hrs i p cs Epi Ecs) in Ei. injection Ei as <-. rewrite map_length, multiplied_len. apply Hpl. eapply nth_error_In. exact Epi. }
    destruct (expand_roots_priors G I HA tsum sample ss (mkT [length ss; asize G] (concat rs)) rs eq_refl eq_refl HLrs Hrl
        (seq 0 (length ss)) st0 r1 st r' HV0 (seq_NoDup _ _)) as (HG & Hold & Hnew); [intros i Hi; apply in_seq in Hi; lia|exact H|].
    split.
    - constructor.
      + intros e [].
      + intros j n En. exists []. split; [constructor|]. cbn. unfold base. destruct (Nat.ltb_spec j (length ss)) as [Hj|Hj].
        * destruct (HR j Hj) as (n' & En' & Hv & _ & Hw). rewrite En in En'. injection En' as <-. auto.
        * split; [eapply Hnv; eassumption|]. destruct (Hnew j n En ltac:(lia)) as (i & ni & a & code & row & _ & _ & _ & Hw & _). exact Hw.
      + intros i v [].
      + intros j n p pn En Hp Epn. destruct (Nat.lt_ge_cases j (length ss)) as [Hj|Hj].
        { destruct (forest_root_lt _ _ _ _ (proj1 HV) Hj) as (n' & s & En' & _ & Hp' & _). congruence. }
        destruct (Hnew j n En ltac:(lia)) as (i & ni & a & code & row & Hi & Hpar & Eni & _ & Hact & Hin & Henc & Erow & Hpol).
        rewrite Hpar in Hp. injection Hp as <-. apply in_seq in Hi. destruct (nth_error_ex _ ss i ltac:(lia)) as [s Es].
        destruct (HR0 i s Es) as (vm & Hvm & Eni'). rewrite Eni in Eni'. injection Eni' as ->. cbn [root_node n_state n_exp] in *.
        assert (Hps : n_state pn = s).
        { destruct HG as (_ & HN & _). destruct (HN i _ Eni) as (pn' & Epn' & Hsn & _). rewrite Epn in Epn'. injection Epn' as <-. exact Hsn. }
        rewrite Hps. destruct (Hcodes i s vm Es Hvm) as (cs & Ecs & Enc).
        destruct (nth_error_ex _ (rows (net_policy nt x)) i ltac:(rewrite (rows_len _ _ _ _ Sp); lia)) as [prow Epr].
        destruct (nth_error_ex _ (data (net_value nt x)) i ltac:(lia)) as [v Ev].
        pose proof (eq_trans (eq_sym Erow) (Hrow i prow cs Epr Ecs)) as Hr. injection Hr as Hr.
        assert (Hc : In code cs) by (eapply mmap_in; [exact Enc|exact Hin|exact Henc]).
        destruct (codes_of G I HA s vm (HI s (nth_error_In _ _ Es)) Hvm) as (cs' & Enc' & _ & Hrng & _). rewrite Enc in Enc'. injection Enc' as <-.
        specialize (Hrng code Hc). pose proof (asize_Z G I HA) as HAz.
        exists a, code, vm, cs, prow, v. split; [exact Hact|]. split; [exact Hvm|]. split; [exact Enc|]. split; [exact Henc|]. split; [exact Hc|]. left.
        split; [lia|]. split; [exists x; auto|]. rewrite Hpol, Hr. unfold root_share.
        assert (HLn : length (noisy (dir_eps cfg) sample prow) = asize G) by (apply Hpl; apply in_map; eapply nth_error_In; exact Epr).
        rewrite (nth_map_lt _ _ f0) by (rewrite multiplied_len; lia). f_equal. apply multiplied_at; [lia|exact Hc].
    - intros g Hg. destruct (HR g Hg) as (n & En & _ & He & _). exists n. auto.
  Qed.

  Lemma parallel_traced order ss r st r' : (forall s, In s ss -> I s) -> Permutation order (seq 0 (length ss)) ->
    alpha_mcts_parallel tsum dirichlet nt cfg order [] ss r = Ok (st, r') ->
    exists log, traced G tsum nt cfg (fst (dirichlet (asize G) (dir_alpha cfg) r)) ss st log.
  Proof.
    intros HI HP H. unfold alpha_mcts_parallel in H. destruct (par_init tsum dirichlet nt cfg ss r) as [[st0 r1]|] eqn:E; cbn [bind] in H; [|discriminate].
    destruct (par_init_inv G I HA tsum dirichlet nt cfg ss r st0 r1 E HI) as (HV & _). pose proof (par_init_nonempty G tsum dirichlet nt cfg ss r st0 r1 E) as Hne.
    destruct (init_traced ss r st0 r1 HI E) as [HT HOp].
    destruct (par_loop tsum nt cfg (iterations cfg) order (st0, repeat 0%nat (length ss), r1)) as [[[st1 sel1] r2]|] eqn:El; cbn [bind] in H; [|discriminate].
    injection H as <- <-.
    apply (loop_traced G I HA tsum nt HNet cfg _ ss order Hne HP (iterations cfg) st0 (repeat 0%nat (length ss)) r1 [] st1 sel1 r2 HV HOp); try assumption.
    apply (sel0_ok G I); assumption.
  Qed.
End S.
