(** * AlphaApi2: priors, visit distributions, order independence and root visits. *)
From Coq Require Import Permutation QArith.
From Verif Require Import Base BaseFacts F32 F32Facts RoundFacts Tensor TensorFacts GameModel McModel McSpec McProof
  AlphaModel AlphaSpec AlphaProof AlphaPar AlphaPar2 AlphaPar3 AlphaCount AlphaApi SampleModel SampleFacts SumFacts ProbFacts VisitSpec VisitFacts
  SelfModel SelfSpec SelfProof.
Require Import ZifyBool ZifyNat.
Open Scope Z_scope.

(** ** C35 *)
Section Priors.
  Variable G : Game.
  Variable I : St G -> Prop.
  Hypothesis HA : alpha_game G I.

  Lemma codes_of s vm : I s -> g_valid G s = Ok vm -> exists codes, encode_all s vm = Ok codes /\ NoDup codes
    /\ (forall c, In c codes -> 0 <= c < g_actions G) /\ length codes = length vm.
  Proof.
    intros Hs Hv.
    assert (H : forall l, (forall m, In m l -> In m vm) -> NoDup l -> exists codes, encode_all s l = Ok codes /\ NoDup codes
      /\ (forall c, In c codes -> 0 <= c < g_actions G /\ exists m, In m l /\ g_encode G s m = Ok c) /\ length codes = length l).
    { induction l as [|m l IH]; intros Hin HN.
      - exists []. repeat split; [constructor|destruct H|destruct H|destruct H].
      - inversion HN as [|? ? Hx HN']; subst. destruct (IH ltac:(intros m' Hm'; apply Hin; right; exact Hm') HN') as (cs & E & HNc & Hc & HL).
        destruct (ag_codec _ _ HA s vm m Hs Hv (Hin m (or_introl eq_refl))) as (c & Ec & Hr & Hd).
        exists (c :: cs). unfold encode_all in *. cbn [mmap]. rewrite Ec. cbn [bind]. rewrite E. cbn [bind]. split; [reflexivity|]. split; [|split].
        + constructor; [|exact HNc]. intros Hc'. destruct (Hc c Hc') as (_ & m' & Hm' & Em').
          destruct (ag_codec _ _ HA s vm m' Hs Hv (Hin m' (or_intror Hm'))) as (c2 & Ec2 & _ & Hd2). replace c2 with c in * by congruence. congruence.
        + intros d [<-|Hd']; [split; [exact Hr|exists m; split; [left; reflexivity|exact Ec]]|].
          destruct (Hc d Hd') as (H1 & m' & Hm' & Em'). split; [exact H1|]. exists m'. split; [right; exact Hm'|exact Em'].
        + cbn. lia. }
    destruct (H vm ltac:(auto) (ag_nodup _ _ HA s vm Hs Hv)) as (cs & E & HN & Hc & HL). exists cs. split; [exact E|]. split; [exact HN|].
    split; [intros c Hin; apply (Hc c Hin)|exact HL].
  Qed.
End Priors.

Theorem C35_priors_lemma : forall G I, alpha_game G I -> forall s vm, I s -> g_valid G s = Ok vm ->
  exists codes, mmap (g_encode G s) vm = Ok codes /\ NoDup codes /\ (forall c, In c codes -> 0 <= c < g_actions G)
  /\ forall policy : list Q, length policy = asize G -> ~ (qsum (map snd (weights policy codes)) == 0)%Q ->
     (exists p, probs_tensor numQ policy codes = Ok p /\ shares (asize G) (weights policy codes) p)
     /\ (g_actions G <= 1352 -> exists p, probs_vec numQ (idx policy) codes = Ok p /\ shares 1352 (weights policy codes) p).
Proof.
  intros G I HA s vm Hs Hv. destruct (codes_of G I HA s vm Hs Hv) as (codes & E & HN & Hr & _). exists codes.
  split; [exact E|]. split; [exact HN|]. split; [exact Hr|]. intros policy HL HT. unfold asize in *. split.
  - rewrite <- HL. apply probs_tensor_shares; [|exact HN|exact HT]. intros c Hc. specialize (Hr c Hc). lia.
  - intros Hb. apply probs_vec_shares; [|exact HN| |exact HT]; intros c Hc; specialize (Hr c Hc); lia.
Qed.

Theorem C35_batch_lemma : forall G I, alpha_game G I -> forall ss : list (St G), (forall s, In s ss -> I s) ->
  exists vms codes, mmap (g_valid G) ss = Ok vms /\ Forall2 (fun s vc => mmap (g_encode G s) (fst vc) = Ok (snd vc)) ss (combine vms codes)
    /\ length codes = length ss
    /\ forall policy : list (list Q), length policy = length ss -> (forall row, In row policy -> length row = asize G) ->
       exists rows, probs_tensor_parallel numQ policy (seq 0 (length ss)) codes = Ok rows /\ length rows = length ss
         /\ forall i row cs, nth_error policy i = Some row -> nth_error codes i = Some cs -> ~ (qsum (map snd (weights row cs)) == 0)%Q ->
            exists p, nth_error rows i = Some p /\ shares (asize G) (weights row cs) p.
Proof.
  intros G I HA ss HI.
  assert (H : exists vms codes, mmap (g_valid G) ss = Ok vms /\ Forall2 (fun s vc => mmap (g_encode G s) (fst vc) = Ok (snd vc)) ss (combine vms codes)
    /\ length codes = length ss /\ forall cs, In cs codes -> NoDup cs /\ forall c, In c cs -> 0 <= c < g_actions G).
  { induction ss as [|s ss IH].
    - exists [], []. cbn. repeat split; [constructor|destruct H|destruct H..].
    - destruct (good_valid _ _ (ag_good _ _ HA) s (HI s (or_introl eq_refl))) as [vm Hv].
      destruct (codes_of G I HA s vm (HI s (or_introl eq_refl)) Hv) as (cs & E & HN & Hr & _).
      destruct IH as (vms & codes & E1 & HF & HL & Hc); [intros s' Hs'; apply HI; right; exact Hs'|].
      exists (vm :: vms), (cs :: codes). cbn [mmap combine length]. rewrite Hv. cbn [bind]. rewrite E1. cbn [bind].
      split; [reflexivity|]. split; [constructor; [exact E|exact HF]|]. split; [lia|]. intros cs' [<-|Hin]; [auto|apply Hc, Hin]. }
  destruct H as (vms & codes & E & HF & HL & Hc). exists vms, codes. split; [exact E|]. split; [exact HF|]. split; [exact HL|].
  intros policy HLp Hrow. rewrite <- HLp. apply probs_tensor_parallel_shares; [exact Hrow|lia| |intros cs Hin; apply Hc, Hin].
  intros cs c Hin Hcin. destruct (Hc cs Hin) as [_ Hr]. specialize (Hr c Hcin). unfold asize. lia.
Qed.

(** the same in f32, on the program's own function *)
Lemma fdiv_zero_pos x : nn32 x -> x <> f0 -> fdiv f0 x = f0.
Proof. intros [->|[->|(m & e & -> & _)]] H; [congruence|reflexivity|reflexivity]. Qed.
Theorem C35_f32_lemma : forall G I, alpha_game G I -> forall tsum, tsum_ok tsum -> forall (n : node G) vm (policy : list f32),
  I (n_state n) -> g_valid G (n_state n) = Ok vm -> n_exp n = vm -> length policy = asize G -> Forall nn32 policy ->
  exists codes p, mmap (g_encode G (n_state n)) vm = Ok codes
    /\ turn_policy_to_probs_tensor tsum (mkT [asize G] policy) n = Ok (mkT [asize G] p) /\ length p = asize G
    /\ exists total, nn32 total
       /\ (total = f0 <-> forall c, In c codes -> nth (Z.to_nat c) policy f0 = f0)
       /\ (forall c, In c codes -> nth (Z.to_nat c) p f0 = fdiv (nth (Z.to_nat c) policy f0) total)
       /\ (total <> f0 -> forall j, (j < asize G)%nat -> ~ In (Z.of_nat j) codes -> nth j p f0 = f0).
Proof.
  intros G I HA tsum HS n vm policy Hs Hv He HL HF. destruct (codes_of G I HA _ vm Hs Hv) as (codes & E & HN & Hr & _).
  assert (Hrl : forall c, In c codes -> 0 <= c < Z.of_nat (length policy)) by (intros c Hc; specialize (Hr c Hc); unfold asize in HL; lia).
  unfold turn_policy_to_probs_tensor. rewrite He, E. cbn [bind data shape]. unfold probs_tensor.
  change (V (num32 tsum)) with f32 in *. rewrite (mmap_idx (num32 tsum)) by exact Hrl. cbn [bind num32 V v0 vdiv vsum]. rewrite put1_puts.
  assert (Hc : combine codes (map (fun c => nth (Z.to_nat c) policy f0) codes) = map (fun c => (c, nth (Z.to_nat c) policy f0)) codes).
  { clear. induction codes as [|c l IH]; cbn [map combine]; [reflexivity|rewrite IH; reflexivity]. }
  rewrite Hc, map_const. clear Hc. set (cw := map (fun c => (c, nth (Z.to_nat c) policy f0)) codes).
  assert (Hfst : map fst cw = codes) by (unfold cw; rewrite map_map; cbn; apply map_id).
  destruct (puts_ok _ cw (repeat f0 (length policy))) as (r & Er & HLr).
  { apply Forall_forall. intros [c w] Hin. rewrite repeat_length. apply Hrl. apply (in_map fst) in Hin. rewrite Hfst in Hin. exact Hin. }
  rewrite Er. cbn [bind]. rewrite repeat_length in HLr.
  destruct (puts_inv _ f0 _ _ _ Er) as (_ & Hoff & Hon). rewrite Hfst in Hoff, Hon. specialize (Hon HN).
  assert (Hon' : forall c, In c codes -> nth (Z.to_nat c) r f0 = nth (Z.to_nat c) policy f0).
  { intros c Hin. destruct (Hon c (nth (Z.to_nat c) policy f0)) as [_ H]; [unfold cw; apply in_map_iff; eauto|]. exact H. }
  assert (Hoff' : forall j, ~ In (Z.of_nat j) codes -> nth j r f0 = f0).
  { intros j Hj. rewrite Hoff by exact Hj. apply nth_repeat_any. }
  assert (Hnn : Forall nn32 r).
  { apply Forall_forall. intros x Hx. apply (In_nth _ _ f0) in Hx. destruct Hx as (j & Hj & <-).
    destruct (in_dec Z.eq_dec (Z.of_nat j) codes) as [Hin|Hin].
    - specialize (Hon' _ Hin). rewrite Nat2Z.id in Hon'. rewrite Hon'. rewrite Forall_forall in HF. apply HF, nth_In. lia.
    - rewrite Hoff' by exact Hin. left. reflexivity. }
  destruct (sums_nn r _ (HS r) Hnn) as [Ht Hz].
  assert (Hmap : forall j, (j < asize G)%nat -> nth j (map (fun x => fdiv x (tsum r)) r) f0 = fdiv (nth j r f0) (tsum r)).
  { intros j Hj. rewrite nth_indep with (d' := fdiv f0 (tsum r)) by (rewrite map_length; lia). apply (map_nth (fun x => fdiv x (tsum r))). }
  exists codes, (map (fun x => fdiv x (tsum r)) r). split; [exact E|]. split; [reflexivity|]. split; [rewrite map_length; lia|].
  exists (tsum r). split; [exact Ht|]. split; [|split].
  - split.
    + intros H c Hin. rewrite <- (Hon' c Hin). specialize (Hz H). rewrite Forall_forall in Hz. apply Hz, nth_In. specialize (Hrl c Hin). lia.
    + intros H. apply (sums_zero r _ (HS r)). apply Forall_forall. intros x Hx. apply (In_nth _ _ f0) in Hx. destruct Hx as (j & Hj & <-).
      destruct (in_dec Z.eq_dec (Z.of_nat j) codes) as [Hin|Hin]; [|apply Hoff', Hin].
      specialize (Hon' _ Hin). specialize (H _ Hin). rewrite Nat2Z.id in *. congruence.
  - intros c Hin. rewrite Hmap by (specialize (Hrl c Hin); lia). rewrite (Hon' c Hin). reflexivity.
  - intros Hnz j Hj Hn. rewrite Hmap by exact Hj. rewrite Hoff' by exact Hn. apply fdiv_zero_pos; assumption.
Qed.

(** ** C36 *)
Theorem C36_distribution_lemma : forall G I, alpha_game G I -> forall tsum, tsum_ok tsum -> forall dirichlet nt cfg ss order r st r',
  (forall s, In s ss -> I s) -> Permutation order (seq 0 (length ss)) ->
  1 + Z.of_nat (iterations cfg) * Z.of_nat (S (length ss)) <= 2 ^ 24 -> (0 < iterations cfg)%nat ->
  alpha_mcts_parallel tsum dirichlet nt cfg order [] ss r = Ok (st, r') ->
  get_root_nodes st = firstn (length ss) st /\
  exists rows, get_prob_tensor_parallel tsum (get_root_nodes st) st = Ok rows /\ length rows = length ss
    /\ forall g s, nth_error ss g = Some s -> exists n vm row, nth_error st g = Some n /\ n_state n = s /\ g_valid G s = Ok vm
         /\ nth_error rows g = Some row /\ (vm <> [] -> visit_row st n vm row).
Proof.
  intros G I HA tsum HS dir nt cfg ss order r st r' HI HP HB HIt H.
  destruct (parallel_rows G I HA tsum HS dir nt cfg ss order r st r' HI HP HB H) as (_ & Hroots & rows & Er & HL & Hrows).
  split; [exact Hroots|]. exists rows. rewrite Hroots. split; [exact Er|]. split; [exact HL|]. intros g s Hg.
  destruct (Hrows g s Hg) as (n & vm & row & A1 & A2 & A3 & A4 & A5 & A6 & A7 & _). exists n, vm, row.
  repeat (split; [assumption|]). intros Hne. apply A7; assumption.
Qed.

Theorem C36_sampled_lemma : forall G I, alpha_game G I -> Z.of_nat (asize G) <= 2 ^ 40 ->
  forall tsum, tsum_ok tsum -> forall unif, unif_ok unif -> forall tpow, pow_ok tpow ->
  forall dirichlet nt cfg ss order r st r' rows,
  (forall s, In s ss -> I s) -> Permutation order (seq 0 (length ss)) ->
  1 + Z.of_nat (iterations cfg) * Z.of_nat (S (length ss)) <= 2 ^ 24 -> (0 < iterations cfg)%nat ->
  alpha_mcts_parallel tsum dirichlet nt cfg order [] ss r = Ok (st, r') ->
  get_prob_tensor_parallel tsum (get_root_nodes st) st = Ok rows ->
  forall g s vm row, nth_error ss g = Some s -> g_valid G s = Ok vm -> vm <> [] -> nth_error rows g = Some row ->
  let pi := map tpow row in
  (SFeqb (tsum pi) f0 = true -> Forall (fun x => x = f0) pi)
  /\ (SFeqb (tsum pi) f0 = false -> forall rr, exists a m rr', weighted_select_tensor_idx unif pi rr = Ok (a, rr')
        /\ nth a pi f0 <> f0 /\ g_decode G s (Z.of_nat a) = Ok m /\ In m vm /\ g_encode G s m = Ok (Z.of_nat a)).
Proof.
  intros G I HA Hsz tsum HS unif HU tpow HPw dir nt cfg ss order r st r' rows HI HP HB HIt H Er g s vm row Hg Hv Hne Hrow pi.
  destruct (parallel_rows G I HA tsum HS dir nt cfg ss order r st r' HI HP HB H) as (_ & Hroots & rows' & Er' & HL & Hrows).
  rewrite Hroots, Er' in Er. injection Er as ->.
  destruct (Hrows g s Hg) as (n & vm' & row' & A1 & A2 & A3 & A4 & A5 & A6 & A7 & _).
  replace vm' with vm in * by congruence. replace row' with row in * by congruence. destruct (A7 Hne HIt) as [Hun HVR].
  assert (Hun' : Forall unit32 pi) by (apply Forall_map; eapply Forall_impl; [|exact Hun]; intros x Hx; apply HPw, Hx).
  split; [apply sum_zero; assumption|]. intros Ez rr.
  destruct (select_ok unif pi rr HU ltac:(unfold pi; rewrite map_length; lia) Hun' (not_zero_exists tsum _ HS Ez)) as (a & rr' & Ea & Hlt & Hnz).
  assert (Hrz : nth a row f0 <> f0).
  { intros Hz. apply Hnz. unfold pi in *. rewrite map_length in Hlt. rewrite nth_indep with (d' := tpow f0) by (rewrite map_length; lia). rewrite map_nth, Hz. apply HPw. }
  destruct (vr_off _ _ _ _ _ HVR a Hrz) as (m & Hm & Em & Dm). rewrite A2 in Em, Dm. exists a, m, rr'. auto.
Qed.

Theorem C36_zero_iterations_lemma : forall G I, alpha_game G I -> forall tsum, tsum_ok tsum -> forall unif tpow, tpow S754_nan = S754_nan ->
  forall dirichlet nt cfg ss order r st r' rows,
  (forall s, In s ss -> I s) -> Permutation order (seq 0 (length ss)) -> iterations cfg = 0%nat ->
  alpha_mcts_parallel tsum dirichlet nt cfg order [] ss r = Ok (st, r') ->
  get_prob_tensor_parallel tsum (get_root_nodes st) st = Ok rows ->
  forall g row, nth_error rows g = Some row -> forall rr, weighted_select_tensor_idx unif (map tpow row) rr = Panic PUnwrap.
Proof.
  intros G I HA tsum HS unif tpow HPw dir nt cfg ss order r st r' rows HI HP HIt H Er g row Hrow rr.
  destruct (parallel_rows G I HA tsum HS dir nt cfg ss order r st r' HI HP) as (_ & Hroots & rows' & Er' & HL & Hrows); [rewrite HIt; lia|exact H|].
  rewrite Hroots, Er' in Er. injection Er as ->.
  destruct (nth_error_ex _ ss g) as [s Hg]; [rewrite <- HL; eapply nth_error_lt; exact Hrow|].
  destruct (Hrows g s Hg) as (n & vm & row' & _ & _ & _ & A4 & _ & A6 & _ & A8). replace row' with row in * by congruence.
  apply select_nan. specialize (A8 (or_intror HIt)). pose proof (ag_actions _ _ HA) as Ha. destruct row as [|x row]; [cbn in A6; lia|].
  cbn [map]. apply Exists_cons_hd. inversion A8; subst. exact HPw.
Qed.

Theorem C36_exact_lemma : forall A (cv : list (Z * Q)), (forall c w, In (c, w) cv -> 0 <= c < Z.of_nat A) -> NoDup (map fst cv) ->
  ~ (qsum (map snd cv) == 0)%Q -> exists p, visit_probs numQ A cv = Ok p /\ shares A cv p.
Proof. exact visit_probs_shares. Qed.

(** ** C37 *)
Theorem C37_order_lemma : forall G I, alpha_game G I -> forall tsum dirichlet nt cfg ss o1 o2 r, (forall s, In s ss -> I s) ->
  Permutation o1 (seq 0 (length ss)) -> Permutation o2 (seq 0 (length ss)) ->
  alpha_mcts_parallel tsum dirichlet nt cfg o1 [] ss r = alpha_mcts_parallel tsum dirichlet nt cfg o2 [] ss r.
Proof. intros G I HA tsum dir nt cfg. apply (parallel_order G I HA). Qed.

(** ** C38 *)
Section Roots.
  Variable G : Game.
  Variable I : St G -> Prop.
  Hypothesis HA : alpha_game G I.
  Variable tsum : list f32 -> f32.
  Variable nt : net.
  Variable cfg : mcfg.
  Variable ss : list (St G).
  Variable order : list nat.
  Hypothesis HP : Permutation order (seq 0 (length ss)).
  Notation inv := (inv G I ss).

  (** no game's selection from [st] ends at a finished position *)
  Definition open_store (st : store G) : Prop := forall g i n, (g < length ss)%nat -> alpha_select_leaf_node g st (cfg_c cfg) = Ok i ->
    nth_error st i = Some n -> g_winner G (n_state n) = None.

  Lemma more_1 v : more 1 v = fadd v f1.
  Proof. reflexivity. Qed.
  Lemma open_iter st sel r st' sel' r' : inv st -> sel_ok G ss st sel -> open_store st ->
    par_iter tsum nt cfg order (st, sel, r) = Ok (st', sel', r') ->
    forall g n, (g < length ss)%nat -> nth_error st g = Some n -> exists n', nth_error st' g = Some n' /\ n_visits n' = fadd (n_visits n) f1.
  Proof.
    intros HV Hsel Hopen H g n Hg En. pose proof HV as [HF _].
    destruct (par_iter_inv G I HA tsum nt cfg ss order st sel r st' sel' r' HV Hsel HP H) as (_ & _ & _ & _ & _ & Hvis).
    destruct (Hvis g n g En (owner_root _ _ _ _ HF Hg)) as (n' & En' & Ev). exists n'. split; [exact En'|]. rewrite Ev.
    assert (Hpick : forall h, (h < length ss)%nat -> exists i, pick G cfg st h = Some (i, None) /\ owner ss st i h).
    { intros h Hh. destruct (pick_spec G I HA cfg ss st h HV Hh) as (i & m & o & Ep & Es & Em & _ & Ho & Hn & _).
      exists i. split; [|exact Ho]. rewrite Ep. f_equal. f_equal. apply Hn. eapply Hopen; eassumption. }
    replace (existsb (unfinished G cfg st) (seq 0 (length ss))) with true.
    2:{ symmetry. apply existsb_exists. exists g. split; [apply in_seq; lia|]. unfold unfinished. destruct (Hpick g Hg) as (i & -> & _). reflexivity. }
    assert (Heff : eff G cfg st g g = None) by (unfold eff; destruct (Hpick g Hg) as (i & -> & _); reflexivity).
    rewrite Heff. cbn [is_some b2n Nat.add].
    assert (Hlen : length (filter (fun h => pathb G st (slot G cfg st sel h) g) (seq 0 (length ss))) = 1%nat).
    { assert (Heq : forall h, In h (seq 0 (length ss)) -> pathb G st (slot G cfg st sel h) g = (h =? g)%nat).
      { intros h Hh. apply in_seq in Hh. destruct (Hpick h ltac:(lia)) as (i & Ep & Ho). unfold slot. rewrite Ep.
        assert (Hi : (i < length st)%nat) by (destruct Ho as [_ Ho]; inversion Ho; eapply nth_error_lt; eassumption).
        apply bool_iff_eq. rewrite pathb_spec by (try exact Hi; eapply forest_parents_down; exact HF). rewrite Nat.eqb_eq. split.
        - intros Hp. symmetry. eapply owner_unique; [exact HF| |exact Ho]. split; [exact Hg|exact Hp].
        - intros ->. exact (proj2 Ho). }
      rewrite (filter_ext_in _ _ _ Heq). clear -Hg.
      assert (forall n k, (k <= g < k + n)%nat -> length (filter (fun h => (h =? g)%nat) (seq k n)) = 1%nat /\ forall j, (g < j)%nat -> forall n, filter (fun h => (h =? g)%nat) (seq j n) = []) as Haux.
      { intros n. assert (Hz : forall n j, (g < j)%nat -> filter (fun h => (h =? g)%nat) (seq j n) = []).
        { clear. induction n as [|n IH]; intros j Hj; [reflexivity|]. cbn [seq filter]. destruct (Nat.eqb_spec j g); [lia|]. apply IH. lia. }
        induction n as [|n IH]; intros k Hk; [lia|]. split; [|intros; apply Hz; assumption]. cbn [seq filter]. destruct (Nat.eqb_spec k g) as [->|Hne].
        - cbn [length]. rewrite Hz by lia. reflexivity.
        - apply IH. lia. }
      apply Haux. lia. }
    rewrite Hlen. reflexivity.
  Qed.

  Lemma open_loop k : forall z st sel r st' sel' r', inv st -> sel_ok G ss st sel -> 0 <= z -> z + Z.of_nat k <= 2 ^ 24 ->
    (forall j st1 sel1 r1, (j < k)%nat -> par_loop tsum nt cfg j order (st, sel, r) = Ok (st1, sel1, r1) -> open_store st1) ->
    (forall g n, (g < length ss)%nat -> nth_error st g = Some n -> n_visits n = f32_of_Z z) ->
    par_loop tsum nt cfg k order (st, sel, r) = Ok (st', sel', r') ->
    forall g n, (g < length ss)%nat -> nth_error st' g = Some n -> n_visits n = f32_of_Z (z + Z.of_nat k).
  Proof.
    induction k as [|k IH]; intros z st sel r st' sel' r' HV Hsel Hz HB Hop Hvis H g n Hg En.
    - injection H as <- <- <-. rewrite Z.add_0_r. eapply Hvis; eassumption.
    - cbn [par_loop] in H. destruct (par_iter tsum nt cfg order (st, sel, r)) as [[[st1 sel1] r1]|] eqn:E; cbn [bind] in H; [|discriminate].
      pose proof (Hop 0%nat st sel r ltac:(lia) eq_refl) as Hop0.
      pose proof (open_iter st sel r st1 sel1 r1 HV Hsel Hop0 E) as Hstep.
      destruct (par_iter_inv G I HA tsum nt cfg ss order st sel r st1 sel1 r1 HV Hsel HP E) as (HV1 & _ & _ & Hsel1 & _).
      replace (z + Z.of_nat (S k)) with ((z + 1) + Z.of_nat k) by lia.
      eapply (IH (z + 1) st1 sel1 r1); try eassumption; try lia.
      + intros j st2 sel2 r2 Hj Hl. apply (Hop (S j) st2 sel2 r2 ltac:(lia)). cbn [par_loop]. rewrite E. exact Hl.
      + intros g' n1 Hg' En1. pose proof HV as [HF _]. destruct (forest_root_lt _ _ _ _ HF Hg') as (n0 & s0 & En0 & _).
        destruct (Hstep g' n0 Hg' En0) as (n1' & En1' & Ev). replace n1 with n1' by congruence. rewrite Ev, (Hvis g' n0 Hg' En0).
        apply counter_step. lia.
  Qed.
End Roots.

Theorem C38_no_finished_leaf_lemma : forall G I, alpha_game G I -> forall tsum dirichlet nt cfg ss order r st0 r0 st r',
  (forall s, In s ss -> I s) -> Permutation order (seq 0 (length ss)) -> 1 + Z.of_nat (iterations cfg) <= 2 ^ 24 ->
  par_init tsum dirichlet nt cfg ss r = Ok (st0, r0) ->
  (** in no iteration a selection ends at a finished position *)
  (forall k st1 sel1 r1, (k < iterations cfg)%nat -> par_loop tsum nt cfg k order (st0, repeat 0%nat (length ss), r0) = Ok (st1, sel1, r1) ->
     forall g i n, (g < length ss)%nat -> alpha_select_leaf_node g st1 (cfg_c cfg) = Ok i -> nth_error st1 i = Some n -> g_winner G (n_state n) = None) ->
  alpha_mcts_parallel tsum dirichlet nt cfg order [] ss r = Ok (st, r') ->
  forall g n, (g < length ss)%nat -> nth_error st g = Some n -> n_visits n = f32_of_Z (1 + Z.of_nat (iterations cfg)).
Proof.
  intros G I HA tsum dir nt cfg ss order r st0 r0 st r' HI HP HB E0 Hop H g n Hg En. unfold alpha_mcts_parallel in H. rewrite E0 in H. cbn [bind] in H.
  destruct (par_loop tsum nt cfg (iterations cfg) order (st0, repeat 0%nat (length ss), r0)) as [[[st1 sel1] r1]|] eqn:El; cbn [bind] in H; [|discriminate].
  injection H as <- <-. destruct (par_init_inv G I HA tsum dir nt cfg ss r st0 r0 E0 HI) as (HV & _ & Hroot & _).
  pose proof (par_init_nonempty _ _ _ _ _ _ _ _ _ E0) as Hne.
  refine (open_loop G I HA tsum nt cfg ss order HP (iterations cfg) 1 st0 _ r0 st1 sel1 r1 HV (sel0_ok G I ss st0 HV Hne) ltac:(lia) HB _ _ El g n Hg En).
  - intros j st2 sel2 r2 Hj Hl. unfold open_store. eapply Hop; eassumption.
  - intros g' n' Hg' En'. destruct (Hroot g' Hg') as (n2 & En2 & Hv & _). replace n' with n2 by congruence. exact Hv.
Qed.

Theorem C38_bounds_lemma : forall G I, alpha_game G I -> forall tsum dirichlet nt cfg ss order r st r',
  (forall s, In s ss -> I s) -> Permutation order (seq 0 (length ss)) ->
  1 + Z.of_nat (iterations cfg) * Z.of_nat (S (length ss)) <= 2 ^ 24 ->
  alpha_mcts_parallel tsum dirichlet nt cfg order [] ss r = Ok (st, r') ->
  forall g n, (g < length ss)%nat -> nth_error st g = Some n -> exists v, n_visits n = f32_of_Z v
    /\ 1 + Z.of_nat (iterations cfg) <= v <= 1 + Z.of_nat (iterations cfg) * Z.of_nat (S (length ss))
    /\ (length ss = 1%nat -> v = 1 + Z.of_nat (iterations cfg)).
Proof.
  intros G I HA tsum dir nt cfg ss order r st r' HI HP HB H g n Hg En.
  destruct (parallel_counted G I HA tsum dir nt cfg ss order r st r' HI HP HB H) as (HV & M & f & HM & HC).
  destruct (co_vis _ _ _ _ _ _ HC g n En ltac:(lia)) as [Hv Hb]. destruct (co_root _ _ _ _ _ _ HC g n En Hg) as (_ & _ & Hlo & _).
  exists (f g). split; [exact Hv|]. split; [lia|]. intros H1. assert (g = 0%nat) as -> by lia.
  apply (co_one _ _ _ _ _ _ HC H1 n En).
Qed.

(** ** C54 *)
Theorem C54_forest_lemma : forall G I, alpha_game G I -> forall tsum dirichlet nt cfg ss order r,
  ss <> [] -> (forall s, In s ss -> I s) -> net_ok G nt -> SFltb f0 (dir_alpha cfg) = true ->
  (forall k a rr, length (fst (dirichlet k a rr)) = k) -> Permutation order (seq 0 (length ss)) ->
  exists st r', alpha_mcts_parallel tsum dirichlet nt cfg order [] ss r = Ok (st, r') /\ forest ss st
    /\ forall i n, nth_error st i = Some n -> I (n_state n).
Proof.
  intros G I HA tsum dir nt cfg ss order r Hne HI HN Hal Hd HP.
  destruct (parallel_ok G I HA tsum dir nt cfg ss order r Hne HI HN Hal Hd HP) as (st & r' & H). exists st, r'. split; [exact H|].
  unfold alpha_mcts_parallel in H. destruct (par_init tsum dir nt cfg ss r) as [[st0 r0]|] eqn:E0; cbn [bind] in H; [|discriminate].
  destruct (par_loop tsum nt cfg (iterations cfg) order (st0, repeat 0%nat (length ss), r0)) as [[[st1 sel1] r1]|] eqn:El; cbn [bind] in H; [|discriminate].
  injection H as <- <-. destruct (par_init_inv G I HA tsum dir nt cfg ss r st0 r0 E0 HI) as (HV & _).
  assert (HV' : inv G I ss st1).
  { assert (Hl : forall k st sel rr st' sel' rr', inv G I ss st -> sel_ok G ss st sel -> par_loop tsum nt cfg k order (st, sel, rr) = Ok (st', sel', rr') -> inv G I ss st').
    { induction k as [|k IH]; intros st sel rr st' sel' rr' HV1 Hs1 Hl; cbn [par_loop] in Hl; [injection Hl as <- <- <-; exact HV1|].
      destruct (par_iter tsum nt cfg order (st, sel, rr)) as [[[st2 sel2] r2]|] eqn:E; cbn [bind] in Hl; [|discriminate].
      destruct (par_iter_inv G I HA tsum nt cfg ss order st sel rr st2 sel2 r2 HV1 Hs1 HP E) as (HV2 & _ & _ & Hs2 & _). eapply IH; eassumption. }
    eapply Hl; [exact HV| |exact El]. apply (sel0_ok G I); assumption. }
  split; [exact (proj1 HV')|]. intros i n En. eapply all_I_nth; [apply HV'|exact En].
Qed.
