(** * VisitFacts: the visit distributions of a batched search in f32. *)
From Coq Require Import Permutation QArith.
From Verif Require Import Base BaseFacts F32 F32Facts RoundFacts Tensor TensorFacts GameModel McModel McSpec McProof
  AlphaModel AlphaSpec AlphaProof AlphaPar AlphaPar2 AlphaPar3 AlphaCount SampleModel SampleFacts ProbFacts VisitSpec.
Require Import ZifyBool ZifyNat.
Open Scope Z_scope.

Lemma unit32_prob x : unit32 x -> prob01 x.
Proof. intros [->|(m & e & -> & _ & H)]; [split; reflexivity|]. split; [reflexivity|exact H]. Qed.
Lemma zsum_in x l : (forall y, In y l -> 0 <= y) -> In x l -> x <= zsum l.
Proof.
  induction l as [|y l IH]; intros H Hin; [destruct Hin|]. rewrite zsum_cons. pose proof (zsum_nonneg l ltac:(intros z Hz; apply H; right; exact Hz)).
  pose proof (H y (or_introl eq_refl)). destruct Hin as [<-|Hin]; [lia|]. specialize (IH ltac:(intros z Hz; apply H; right; exact Hz) Hin). lia.
Qed.
Lemma zsum_repeat0 n : zsum (repeat 0 n) = 0.
Proof. induction n as [|n IH]; cbn [repeat]; rewrite ?zsum_cons; [reflexivity|lia]. Qed.

(** a row of counters divided by its sum *)
Lemma row_int tsum A (zcv : list (Z * Z)) r : tsum_ok tsum -> NoDup (map fst zcv) ->
  (forall c k, In (c, k) zcv -> 0 <= c < Z.of_nat A /\ 0 <= k) -> 0 < zsum (map snd zcv) < 2 ^ 24 ->
  puts (repeat f0 A) (map (fun cv => (fst cv, f32_of_Z (snd cv))) zcv) = Ok r ->
  let T := zsum (map snd zcv) in
  let row := map (fun x => fdiv x (tsum r)) r in
  length row = A /\ Forall unit32 row /\ Exists (fun x => x <> f0) row
  /\ (exists ks, length ks = A /\ (forall k, In k ks -> 0 <= k) /\ zsum ks = T /\ row = map (fun k => fdiv (f32_of_Z k) (f32_of_Z T)) ks
       /\ (forall j, nth j row f0 = f0 <-> nth j ks 0 = 0) /\ (forall c k, In (c, k) zcv -> nth (Z.to_nat c) ks 0 = k))
  /\ (forall j, nth j row f0 <> f0 -> In (Z.of_nat j) (map fst zcv)).
Proof.
  intros HS HN Hr HT E T row.
  destruct (puts_ok _ zcv (repeat 0 A)) as (zr & Ez & HLz).
  { apply Forall_forall. intros [c k] Hin. rewrite repeat_length. apply (Hr c k Hin). }
  rewrite repeat_length in HLz. pose proof (puts_map _ _ f32_of_Z _ _ _ Ez) as Em.
  assert (Hrep : map f32_of_Z (repeat 0 A) = repeat f0 A) by (clear; induction A as [|A IH]; cbn; [reflexivity|rewrite IH; reflexivity]).
  rewrite Hrep, E in Em. injection Em as ->.
  assert (HP : Permutation (zr ++ repeat 0 (length zcv)) (map snd zcv ++ repeat 0 A)).
  { apply puts_perm; [exact Ez|exact HN|]. intros c _. apply nth_repeat_any. }
  assert (Hzs : zsum zr = T). { apply zsum_perm in HP. rewrite !zsum_app, !zsum_repeat0 in HP. unfold T. lia. }
  assert (Hpos : forall z, In z zr -> 0 <= z).
  { intros z Hz. assert (Hin : In z (map snd zcv ++ repeat 0 A)) by (eapply Permutation_in; [exact HP|apply in_or_app; left; exact Hz]).
    apply in_app_or in Hin. destruct Hin as [Hin|Hin]; [|apply repeat_spec in Hin; lia].
    apply in_map_iff in Hin. destruct Hin as ([c k] & <- & Hin). apply (Hr c k Hin). }
  assert (Hts : tsum (map f32_of_Z zr) = f32_of_Z T).
  { rewrite <- Hzs. eapply sums_int; [apply HS|reflexivity|exact Hpos|]. fold T in HT. lia. }
  destruct (puts_inv _ 0 _ _ _ Ez) as (_ & Hoff & Hon).
  assert (Hz0 : forall z, In z zr -> unit32 (fdiv (f32_of_Z z) (f32_of_Z T)) /\ (fdiv (f32_of_Z z) (f32_of_Z T) = f0 <-> z = 0)).
  { intros z Hz. pose proof (zsum_in z zr Hpos Hz). specialize (Hpos z Hz). fold T in HT. apply fdiv_unit; lia. }
  unfold row. rewrite Hts, map_map.
  assert (Hn : forall j, (j < A)%nat -> nth j (map (fun x => fdiv (f32_of_Z x) (f32_of_Z T)) zr) f0 = fdiv (f32_of_Z (nth j zr 0)) (f32_of_Z T)).
  { intros j Hj. rewrite nth_indep with (d' := fdiv (f32_of_Z 0) (f32_of_Z T)) by (rewrite map_length; lia).
    rewrite (map_nth (fun x => fdiv (f32_of_Z x) (f32_of_Z T))). reflexivity. }
  assert (Hzin : forall j, (j < A)%nat -> In (nth j zr 0) zr) by (intros j Hj; apply nth_In; lia).
  split; [rewrite map_length; exact HLz|]. split; [|split; [|split]].
  - apply Forall_map, Forall_forall. intros z Hz. apply Hz0, Hz.
  - apply Exists_exists. destruct (Exists_dec (fun z => z <> 0) zr) as [He|He]; [intros z; destruct (Z.eq_dec z 0); [right; lia|left; assumption]| |].
    + apply Exists_exists in He. destruct He as (z & Hz & Hne). eexists. split; [apply in_map; exact Hz|]. intros H. apply Hne, (Hz0 z Hz), H.
    + exfalso. assert (Hall : forall l, (forall z, In z l -> z = 0) -> zsum l = 0) by (induction l as [|a l IH]; intros Hl; [reflexivity|]; rewrite zsum_cons, IH by (intros z Hz; apply Hl; right; exact Hz); specialize (Hl a (or_introl eq_refl)); lia).
      rewrite Hall in Hzs; [fold T in HT; lia|]. intros z Hz. destruct (Z.eq_dec z 0) as [|Hne]; [assumption|]. exfalso. apply He, Exists_exists. eauto.
  - exists zr. split; [exact HLz|]. split; [exact Hpos|]. split; [exact Hzs|]. split; [reflexivity|]. split.
    + intros j. destruct (Nat.lt_ge_cases j A) as [HjA|HjA]; [rewrite (Hn _ HjA); apply Hz0, Hzin, HjA|].
      rewrite !nth_overflow by (rewrite ?map_length; lia). tauto.
    + intros c k Hin. apply (Hon HN c k Hin).
  - intros j Hj. destruct (Nat.lt_ge_cases j A) as [HjA|HjA]; [|exfalso; apply Hj, nth_overflow; rewrite map_length; lia].
    destruct (in_dec Z.eq_dec (Z.of_nat j) (map fst zcv)) as [|Hni]; [assumption|]. exfalso. apply Hj. rewrite (Hn _ HjA).
    apply Hz0; [apply Hzin, HjA|]. rewrite (Hoff j Hni). apply nth_repeat_any.
Qed.

Section V.
  Variable G : Game.
  Variable I : St G -> Prop.
  Hypothesis HA : alpha_game G I.
  Variable tsum : list f32 -> f32.
  Hypothesis HS : tsum_ok tsum.
  Variable dirichlet : nat -> f32 -> rng -> list f32 * rng.
  Variable nt : net.
  Variable cfg : mcfg.
  Implicit Types (st : store G) (n : node G).

  Lemma codes_nodup s vm : I s -> g_valid G s = Ok vm -> NoDup vm -> forall ms cs, (forall m, In m ms -> In m vm) -> NoDup ms ->
    Forall2 (fun m c => g_encode G s m = Ok c) ms cs -> NoDup cs.
  Proof.
    intros Hs Hv _ ms cs Hin HN HF. induction HF as [|m c ms cs Hmc HF IH]; constructor.
    - intros Hc. destruct (forall2_in_r _ _ _ _ _ _ HF Hc) as (m' & Hm' & Em').
      destruct (ag_codec _ _ HA s vm m Hs Hv (Hin m (or_introl eq_refl))) as (c1 & E1 & _ & D1).
      destruct (ag_codec _ _ HA s vm m' Hs Hv (Hin m' (or_intror Hm'))) as (c2 & E2 & _ & D2).
      assert (m = m') by congruence. subst. inversion HN; contradiction.
    - apply IH; [intros x Hx; apply Hin; right; exact Hx|inversion HN; assumption].
  Qed.

  (** the children of a root, as read by the visit distribution *)
  Lemma root_visits ss st M k f g n : inv G I ss st -> counted G ss M k f st -> (length ss <= M)%nat -> (g < length ss)%nat -> nth_error st g = Some n ->
    exists vm zcv, g_valid G (n_state n) = Ok vm /\ (n_children n = [] <-> vm = [])
      /\ child_visits (n_state n) st n = Ok (map (fun cv => (fst cv, f32_of_Z (snd cv))) zcv)
      /\ NoDup (map fst zcv) /\ map snd zcv = map f (n_children n)
      /\ (forall c z, In (c, z) zcv -> 0 <= c < Z.of_nat (asize G) /\ 0 <= z)
      /\ Forall2 (fun m cz => g_encode G (n_state n) m = Ok (fst cz) /\ child_of st n m (fst cz) (f32_of_Z (snd cz))) vm zcv.
  Proof.
    intros HV HC HM Hg En. destruct (co_root _ _ _ _ _ _ HC g n En Hg) as (He & Hch & _).
    destruct (fo_moves _ _ _ (proj1 HV) _ _ En) as (vm & Hv & Hor).
    assert (HIs : I (n_state n)) by (eapply all_I_nth; [apply HV|exact En]).
    assert (HF : Forall2 (fun c a => exists cn, nth_error st c = Some cn /\ n_action cn = Some a) (n_children n) vm).
    { destruct Hor as [[Hc Hx]|[_ HF]]; [|exact HF]. rewrite Hc. rewrite He in Hx. subst. constructor. }
    pose proof (ag_nodup _ _ HA _ _ HIs Hv) as HNv.
    assert (Hloop : forall cs ms, Forall2 (fun c a => exists cn, nth_error st c = Some cn /\ n_action cn = Some a) cs ms ->
      (forall c, In c cs -> In c (n_children n)) -> (forall m, In m ms -> In m vm) ->
      exists zcv, mmap (fun c => cn <- get_node st c ;; match n_action cn with Some a => code <- g_encode G (n_state n) a ;; Ok (code, n_visits cn) | None => Panic PUnwrap end) cs
          = Ok (map (fun cv => (fst cv, f32_of_Z (snd cv))) zcv)
        /\ map snd zcv = map f cs /\ (forall c z, In (c, z) zcv -> 0 <= c < Z.of_nat (asize G) /\ 0 <= z)
        /\ Forall2 (fun m cz => g_encode G (n_state n) m = Ok (fst cz) /\ child_of st n m (fst cz) (f32_of_Z (snd cz))) ms zcv).
    { induction 1 as [|c m cs ms (cn & Ecn & Ha) HF2 IH]; intros Hcs Hms.
      - exists []. cbn. repeat split; try constructor; intros; contradiction.
      - destruct IH as (zcv & E & H1 & H2 & H3); [intros x Hx; apply Hcs; right; exact Hx|intros x Hx; apply Hms; right; exact Hx|].
        destruct (ag_codec _ _ HA _ _ _ HIs Hv (Hms m (or_introl eq_refl))) as (code & Ecode & Hcode & _).
        pose proof (Hcs c (or_introl eq_refl)) as Hcin. destruct (co_vis _ _ _ _ _ _ HC c cn Ecn (Hch c Hcin)) as [Hvis Hfc].
        exists ((code, f c) :: zcv). cbn [mmap]. unfold get_node at 1. rewrite Ecn. cbn [bind]. rewrite Ha, Ecode. cbn [bind]. rewrite E. cbn [bind map fst snd].
        rewrite Hvis. split; [reflexivity|]. split; [rewrite H1; reflexivity|]. split.
        + intros c' z [[= <- <-]|Hin]; [|apply (H2 c' z Hin)]. rewrite (asize_Z G I HA). split; [exact Hcode|apply Hfc].
        + constructor; [|exact H3]. cbn [fst snd]. split; [exact Ecode|]. exists c, cn. repeat split; assumption. }
    destruct (Hloop _ _ HF ltac:(auto) ltac:(auto)) as (zcv & E & H1 & H2 & H3).
    exists vm, zcv. split; [exact Hv|]. split.
    { split; intros H; [rewrite H in HF; inversion HF; reflexivity|subst; inversion HF; reflexivity]. }
    split; [exact E|]. split.
    { apply (codes_nodup (n_state n) vm HIs Hv HNv vm); [auto|exact HNv|]. clear -H3. induction H3 as [|m cz ms zcv [H _] HF IH]; cbn [map]; constructor; assumption. }
    split; [exact H1|]. split; [exact H2|exact H3].
  Qed.

  Lemma puts_nil_nan A row (r : list f32) : puts (repeat f0 A) [] = Ok r -> row = map (fun x => fdiv x (tsum r)) r -> tsum r = f0 ->
    Forall (fun x => x = S754_nan) row.
  Proof. intros [= <-] -> ->. apply Forall_map, Forall_forall. intros x Hx. apply repeat_spec in Hx. subst. reflexivity. Qed.

  (** roots of the store *)
  Lemma root_list ss st : forest ss st -> get_root_nodes st = firstn (length ss) st /\ (length ss <= length st)%nat.
  Proof.
    intros HF.
    assert (HL : (length ss <= length st)%nat).
    { destruct ss as [|s ss'] using rev_ind; [cbn; lia|]. clear IHss'.
      destruct (forest_root_lt _ _ _ (length ss') HF) as (n & s' & En & _); [rewrite app_length; cbn; lia|]. apply nth_error_lt in En. rewrite app_length. cbn. lia. }
    split; [|exact HL].
    assert (Hroot : forall i n, nth_error st i = Some n -> (i < length ss)%nat -> n_parent n = None).
    { intros i n En Hi. destruct (forest_root_lt _ _ _ i HF Hi) as (m & s & Em & _ & Hp & _). congruence. }
    assert (Hinner : forall i n, nth_error st i = Some n -> (length ss <= i)%nat -> n_parent n <> None).
    { intros i n En Hi. destruct (fo_parent _ _ _ HF _ _ En Hi) as (p & pn & a & vm & r & r' & Hp & _). congruence. }
    unfold get_root_nodes. set (k := length ss) in *. clearbody k. clear HF. revert st HL Hroot Hinner.
    induction k as [|k IH]; intros st HL Hroot Hinner.
    - cbn [firstn]. induction st as [|n st IHst]; [reflexivity|]. cbn [filter].
      destruct (n_parent n) eqn:Ep; [|exfalso; apply (Hinner 0%nat n eq_refl); [lia|exact Ep]].
      apply IHst; [cbn in *; lia|intros i m Em Hi; lia|intros i m Em _; apply (Hinner (S i) m Em); lia].
    - destruct st as [|n st]; [cbn in HL; lia|]. cbn [firstn filter]. rewrite (Hroot 0%nat n eq_refl) by lia. f_equal.
      apply IH; [cbn in HL; lia|intros i m Em Hi; apply (Hroot (S i) m Em); lia|intros i m Em Hi; apply (Hinner (S i) m Em); lia].
  Qed.

  Lemma nth_firstn (B : Type) (l : list B) : forall k i, (i < k)%nat -> nth_error (firstn k l) i = nth_error l i.
  Proof. induction l as [|x l IH]; intros [|k] [|i] H; try lia; cbn; auto. apply IH. lia. Qed.

  (** ** the visit distributions after a batched search *)
  Lemma parallel_rows ss order r st r' : (forall s, In s ss -> I s) -> Permutation order (seq 0 (length ss)) ->
    1 + Z.of_nat (iterations cfg) * Z.of_nat (S (length ss)) <= 2 ^ 24 ->
    alpha_mcts_parallel tsum dirichlet nt cfg order [] ss r = Ok (st, r') ->
    (length ss <= length st)%nat /\ get_root_nodes st = firstn (length ss) st /\
    exists rows, get_prob_tensor_parallel tsum (firstn (length ss) st) st = Ok rows /\ length rows = length ss
      /\ forall g s, nth_error ss g = Some s -> exists n vm row, nth_error st g = Some n /\ n_state n = s /\ g_valid G s = Ok vm
           /\ nth_error rows g = Some row /\ (n_children n = [] <-> vm = []) /\ length row = asize G
           /\ (vm <> [] -> (0 < iterations cfg)%nat -> Forall unit32 row /\ visit_row st n vm row)
           /\ (vm = [] \/ iterations cfg = 0%nat -> Forall (fun x => x = S754_nan) row).
  Proof.
    intros HI HP HB H. destruct (parallel_counted G I HA tsum dirichlet nt cfg ss order r st r' HI HP HB H) as (HV & M & f & HM & HC).
    destruct (root_list ss st (proj1 HV)) as [Hroots HL]. split; [exact HL|]. split; [exact Hroots|].
    unfold get_prob_tensor_parallel.
    assert (Hall : exists cvs, mmap (fun n => child_visits (n_state n) st n) (firstn (length ss) st) = Ok cvs).
    { apply mmap_all_ok. intros n Hin. apply In_nth_error in Hin. destruct Hin as [g Eg].
      assert (Hg : (g < length ss)%nat) by (apply nth_error_lt in Eg; rewrite firstn_length in Eg; lia).
      rewrite nth_firstn in Eg by exact Hg. destruct (root_visits ss st M _ f g n HV HC HM Hg Eg) as (vm & zcv & _ & _ & E & _). eauto. }
    destruct Hall as [cvs Ecvs]. rewrite Ecvs. cbn [bind]. pose proof (mmap_ok_in _ _ _ _ _ Ecvs) as HF2.
    assert (HLc : length cvs = length ss) by (apply mmap_length in Ecvs; rewrite Ecvs, firstn_length; lia).
    assert (Hcv : forall g n, (g < length ss)%nat -> nth_error st g = Some n -> exists cv, nth_error cvs g = Some cv /\ child_visits (n_state n) st n = Ok cv).
    { intros g n Hg En. rewrite <- (nth_firstn _ st (length ss) g Hg) in En. clear -HF2 En. revert g En. induction HF2 as [|a b la lb Hab HF IH]; intros [|g] En; try discriminate.
      - cbn in *. injection En as ->. eauto.
      - cbn in *. apply IH. exact En. }
    destruct (visit_rows (num32 tsum) (asize G) cvs) as (rows & Er & HLr & Hrows).
    { intros cv c w Hcvin Hin. destruct (forall2_in_r _ _ _ _ _ _ HF2 Hcvin) as (n & Hn & En). apply In_nth_error in Hn. destruct Hn as [g Eg].
      assert (Hg : (g < length ss)%nat) by (apply nth_error_lt in Eg; rewrite firstn_length in Eg; lia).
      rewrite nth_firstn in Eg by exact Hg. destruct (root_visits ss st M _ f g n HV HC HM Hg Eg) as (vm & zcv & _ & _ & E & _ & _ & Hr & _).
      rewrite En in E. injection E as ->. apply in_map_iff in Hin. destruct Hin as ([c' z] & [= <- <-] & Hin). apply (Hr c' z Hin). }
    change (V (num32 tsum)) with f32 in *. rewrite Er. exists rows. split; [reflexivity|]. split; [lia|].
    intros g s Es. assert (Hg : (g < length ss)%nat) by (apply nth_error_lt in Es; exact Es).
    destruct (forest_root_lt _ _ _ g (proj1 HV) Hg) as (n & s' & En & Es' & _ & Hst). rewrite Es in Es'. injection Es' as <-.
    destruct (root_visits ss st M _ f g n HV HC HM Hg En) as (vm & zcv & Hv & Hce & E & HN & Hsnd & Hr & HF).
    destruct (Hcv g n Hg En) as (cv & Ecv & E'). rewrite E in E'. injection E' as <-.
    destruct (Hrows g _ Ecv) as (rr & Eput & Erow). cbn [num32 v0 vdiv vsum V] in *.
    destruct (co_root _ _ _ _ _ _ HC g n En Hg) as (_ & _ & _ & Hz1 & Hz2). destruct (co_vis _ _ _ _ _ _ HC g n En ltac:(lia)) as [_ Hfg].
    pose proof (puts_inv _ f0 _ _ _ Eput) as (HLrr & _). rewrite repeat_length in HLrr.
    exists n, vm, (map (fun x => fdiv x (tsum rr)) rr). rewrite <- Hst in *.
    split; [exact En|]. split; [reflexivity|]. split; [exact Hv|]. split; [exact Erow|]. split; [exact Hce|]. split; [rewrite map_length; exact HLrr|]. split.
    - intros Hne Hit. assert (Hcn : n_children n <> []) by (intros Hx; apply Hne, Hce, Hx). specialize (Hz2 Hcn). rewrite <- Hsnd in *.
      destruct (row_int tsum (asize G) zcv rr HS HN Hr ltac:(lia) Eput) as (R1 & R2 & R3 & R4 & R5).
      split; [exact R2|]. constructor.
      + exact R1.
      + intros x Hx. apply unit32_prob. rewrite Forall_forall in R2. apply R2, Hx.
      + apply Exists_exists in R3. exact R3.
      + destruct R4 as (ks & K1 & K2 & K3 & K4 & K5 & K6). exists ks. rewrite K3. split; [exact K1|]. split; [exact K2|]. split; [lia|]. split; [exact K4|]. split; [exact K5|].
        intros m Hm. destruct (forall2_in_l _ _ _ _ _ _ HF Hm) as ([c k] & Hck & _ & Hchild). cbn [fst snd] in Hchild.
        exists c. rewrite (K6 c k Hck). destruct (Hr c k Hck) as [Hc _]. rewrite (asize_Z G I HA) in Hc. split; [exact Hc|exact Hchild].
      + intros j Hj. apply R5 in Hj. apply in_map_iff in Hj. destruct Hj as ([c k] & Hc & Hin). cbn [fst] in Hc. subst c.
        destruct (forall2_in_r _ _ _ _ _ _ HF Hin) as (m & Hm & Em & _). cbn [fst] in Em. exists m. split; [exact Hm|]. split; [exact Em|].
        destruct (ag_codec _ _ HA (n_state n) vm m ltac:(eapply all_I_nth; [apply HV|exact En]) Hv Hm) as (c' & Ec' & _ & D). congruence.
    - intros Hor. assert (Hrow0 : rr = map f32_of_Z (repeat 0 (asize G))).
      { assert (Hall0 : forall z, In z (map snd zcv) -> z = 0).
        { intros z Hz. destruct Hor as [->|Hit]; [inversion HF; subst; destruct Hz|].
          assert (zsum (map snd zcv) <= 0) by (rewrite Hsnd; rewrite Hit in Hfg; cbn in Hfg; lia).
          assert (Hnn : forall y, In y (map snd zcv) -> 0 <= y) by (intros y Hy; apply in_map_iff in Hy; destruct Hy as ([c' z'] & <- & Hy); apply (Hr c' z' Hy)).
          pose proof (zsum_in z _ Hnn Hz). specialize (Hnn z Hz). lia. }
        assert (HFz : Forall (fun x => x = f0) rr).
        { eapply puts_all; [exact Eput|apply Forall_forall; intros x Hx; apply repeat_spec in Hx; exact Hx|].
          apply Forall_map, Forall_forall. intros [c z] Hin. cbn [fst snd]. rewrite (Hall0 z); [reflexivity|]. apply in_map_iff. exists (c, z). auto. }
        clear -HFz HLrr. revert rr HFz HLrr. induction (asize G) as [|A IH]; intros [|x rr] HF HL; try discriminate; [reflexivity|]. cbn [repeat map].
        inversion HF; subst. f_equal. apply IH; [assumption|cbn in HL; lia]. }
      assert (Hts : tsum rr = f0).
      { pose proof (sums_int rr _ (HS rr) (repeat 0 (asize G)) Hrow0) as X. rewrite zsum_repeat0 in X. apply X; [|lia].
        intros z Hz. apply repeat_spec in Hz. lia. }
      rewrite Hts, Hrow0, map_map. apply Forall_map, Forall_forall. intros z Hz. apply repeat_spec in Hz. subst. reflexivity.
  Qed.
End V.
