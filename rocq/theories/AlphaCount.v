(** * AlphaCount: visit counts of the roots and of their children in the batched search. *)
From Verif Require Import Base BaseFacts F32 F32Facts Tensor TensorFacts GameModel McModel McSpec AlphaModel AlphaSpec McProof McProof2 AlphaProof AlphaPar AlphaPar2 AlphaPar3.
From Coq Require Import Arith Permutation.
Require Import ZifyBool ZifyNat.

Lemma more_int k : forall z, 0 <= z -> z + Z.of_nat k <= 2 ^ 24 -> more k (f32_of_Z z) = f32_of_Z (z + Z.of_nat k).
Proof.
  induction k as [|k IH]; intros z Hz Hk; [rewrite Z.add_0_r; reflexivity|]. cbn [more]. rewrite IH by lia.
  rewrite counter_step by lia. f_equal. lia.
Qed.
Lemma zsum_cons x l : zsum (x :: l) = x + zsum l.
Proof. reflexivity. Qed.
Lemma zsum_add (f g : nat -> Z) l : zsum (map (fun c => f c + g c) l) = zsum (map f l) + zsum (map g l).
Proof. induction l as [|x l IH]; [reflexivity|]. cbn [map]. rewrite !zsum_cons, IH. lia. Qed.
Lemma zsum_nonneg l : (forall x, In x l -> 0 <= x) -> 0 <= zsum l.
Proof.
  induction l as [|x l IH]; intros H; [cbn; lia|]. rewrite zsum_cons. specialize (IH ltac:(intros y Hy; apply H; right; exact Hy)).
  specialize (H x (or_introl eq_refl)). lia.
Qed.

Section D.
  Variable G : Game.
  Variable I : St G -> Prop.
  Hypothesis HA : alpha_game G I.
  Variable tsum : list f32 -> f32.
  Variable nt : net.
  Variable cfg : mcfg.
  Variable roots : list (St G).
  Implicit Types (st : store G) (n : node G).
  Notation inv := (inv G I roots).
  Notation nr := (length roots).

  (** the starting points of all backpropagations of one iteration that concern game [g] *)
  Definition any_unf st : bool := existsb (unfinished G cfg st) (seq 0 nr).
  Definition events st (sel : list nat) (g : nat) : list nat :=
    (match pick G cfg st g with Some (i, Some _) => [i] | _ => [] end)
    ++ (if any_unf st then map (slot G cfg st sel) (seq 0 nr) else []).
  Definition gain st sel (g j : nat) : Z := Z.of_nat (length (filter (fun i => pathb G st i j) (events st sel g))).

  Lemma gain_eq st sel g j :
    (b2n (is_some (eff G cfg st g j))
       + (if any_unf st then length (filter (fun h => pathb G st (slot G cfg st sel h) j) (seq 0 nr)) else 0))%nat
    = length (filter (fun i => pathb G st i j) (events st sel g)).
  Proof.
    unfold events. rewrite filter_app, app_length. f_equal.
    - unfold eff. destruct (pick G cfg st g) as [[i [v|]]|]; try reflexivity. cbn [filter]. destruct (pathb G st i j); reflexivity.
    - destruct (any_unf st); [|reflexivity].
      generalize (seq 0 nr) as l. induction l as [|y l IHl]; [reflexivity|]. cbn [map filter]. destruct (pathb G st (slot G cfg st sel y) j); cbn [length]; rewrite ?IHl; auto.
  Qed.
  Lemma events_lt st sel g i : inv st -> sel_ok G roots st sel -> (g < nr)%nat -> In i (events st sel g) -> (i < length st)%nat.
  Proof.
    intros HV [HL Hs] Hg Hi. unfold events in Hi. apply in_app_or in Hi. destruct Hi as [Hi|Hi].
    - destruct (pick_spec G I HA cfg roots st g HV Hg) as (i' & n & o & Ep & _ & En & _). rewrite Ep in Hi.
      destruct o; [|destruct Hi]. destruct Hi as [<-|[]]. eapply nth_error_lt. exact En.
    - destruct (any_unf st); [|destruct Hi]. apply in_map_iff in Hi. destruct Hi as (h & <- & Hh). apply in_seq in Hh. unfold slot.
      destruct (pick_spec G I HA cfg roots st h HV ltac:(lia)) as (i' & n & o & Ep & _ & En & _). rewrite Ep.
      destruct o; [apply Hs, nth_In; lia|eapply nth_error_lt; exact En].
  Qed.
  Lemma events_len st sel g : (length (events st sel g) <= S nr)%nat.
  Proof.
    unfold events. rewrite app_length. destruct (pick G cfg st g) as [[i [v|]]|]; cbn [length]; destruct (any_unf st); cbn [length]; rewrite ?map_length, ?seq_length; lia.
  Qed.
  (** the leaf selected for [g] is always among them *)
  Lemma events_leaf st sel g : inv st -> (g < nr)%nat -> exists i n, In i (events st sel g) /\ nth_error st i = Some n /\ n_children n = [] /\ owner roots st i g.
  Proof.
    intros HV Hg. destruct (pick_spec G I HA cfg roots st g HV Hg) as (i & n & o & Ep & _ & En & Hc & Ho & _).
    exists i, n. split; [|auto]. unfold events. rewrite Ep. destruct o as [v|]; [left; reflexivity|]. apply in_or_app. right.
    assert (Hany : any_unf st = true). { apply existsb_exists. exists g. split; [apply in_seq; lia|]. unfold unfinished. rewrite Ep. reflexivity. }
    rewrite Hany. apply in_map_iff. exists g. split; [unfold slot; rewrite Ep; reflexivity|apply in_seq; lia].
  Qed.

  (** a path through a node goes through at most one of its children *)
  Definition b2z (b : bool) : Z := if b then 1 else 0.
  Lemma path_children st i g n : inv st -> (i < length st)%nat -> nth_error st g = Some n ->
    zsum (map (fun c => b2z (pathb G st i c)) (n_children n)) = if pathb G st i g && negb (i =? g)%nat then 1 else 0.
  Proof.
    intros [HF HI] Hi En. pose proof (forest_parents_down _ _ _ HF) as HP.
    assert (Hz : forall l, zsum (map (fun c => b2z (pathb G st i c)) l) = zsum (map (fun c => 0 + (if pathb G st i c then 1 else 0)) l))
      by (intros l; apply zsum_map_ext; intros c _; unfold b2z; lia).
    rewrite Hz.
    assert (Hz0 : zsum (map (fun _ : nat => 0) (n_children n)) = 0) by (induction (n_children n) as [|x l IHl]; [reflexivity|]; cbn [map]; rewrite zsum_cons; lia).
    assert (Hup : forall c, In c (n_children n) -> pathb G st i c = true -> on_path st i c /\ pathb G st i g = true /\ i <> g /\ exists cn, nth_error st c = Some cn /\ n_parent cn = Some g).
    { intros c Hc Hp. apply pathb_spec in Hp; [|exact HP|exact Hi].
      destruct (forest_child_gt _ _ _ _ _ _ HF En Hc) as (Hgt & cn & Ecn & Hpar & _).
      split; [exact Hp|]. split.
      - apply pathb_spec; [exact HP|exact Hi|]. eapply on_path_parent; eauto.
      - split; [|eauto]. pose proof (on_path_le _ _ _ _ HP Hp). lia. }
    destruct (pathb G st i g && negb (i =? g)%nat) eqn:Eb.
    - apply andb_true_iff in Eb. destruct Eb as [Eb Hne]. apply negb_true_iff, Nat.eqb_neq in Hne.
      apply pathb_spec in Eb; [|exact HP|exact Hi].
      destruct (on_path_child _ _ _ _ Eb Hne) as (c & cn & Hc & Ecn & Hpar).
      assert (Hin : In c (n_children n)).
      { destruct (Nat.lt_ge_cases c nr) as [Hcr|Hcr].
        - destruct (forest_root_lt _ _ _ _ HF Hcr) as (m & s & Em & _ & Hpm & _). congruence.
        - destruct (fo_parent _ _ _ HF _ _ Ecn Hcr) as (p & pn & a & vm & r & r' & Hp & _ & Epn & Hin & _).
          rewrite Hpar in Hp. injection Hp as <-. rewrite En in Epn. injection Epn as <-. exact Hin. }
      rewrite (zsum_one (fun _ => 0) (pathb G st i) (n_children n) c); [lia|eapply fo_nodup; eassumption|exact Hin| |].
      + apply pathb_spec; [exact HP|exact Hi|exact Hc].
      + intros c' Hc' Hp'. destruct (Hup c' Hc' Hp') as (Hp2 & _ & _ & cn' & Ecn' & Hpar'). symmetry. eapply on_path_child_unique; eassumption.
    - rewrite (zsum_none (fun _ => 0)); [exact Hz0|]. intros c Hc. destruct (pathb G st i c) eqn:Ep; [|reflexivity].
      destruct (Hup c Hc Ep) as (_ & H1 & H2 & _). rewrite H1 in Eb. apply andb_false_iff in Eb. destruct Eb as [Eb|Eb]; [discriminate|].
      apply negb_false_iff, Nat.eqb_eq in Eb. contradiction.
  Qed.
  Lemma count_children st L g n : inv st -> (forall i, In i L -> (i < length st)%nat) -> nth_error st g = Some n ->
    zsum (map (fun c => Z.of_nat (length (filter (fun i => pathb G st i c) L))) (n_children n))
    = Z.of_nat (length (filter (fun i => pathb G st i g && negb (i =? g)%nat) L)).
  Proof.
    intros HV HL En. induction L as [|i L IH].
    - cbn. induction (n_children n) as [|x l IHl]; [reflexivity|]. cbn [map]. rewrite zsum_cons. lia.
    - transitivity (zsum (map (fun c => b2z (pathb G st i c) + Z.of_nat (length (filter (fun i => pathb G st i c) L))) (n_children n))).
      + apply zsum_map_ext. intros c _. cbn [filter]. unfold b2z. destruct (pathb G st i c); cbn [length]; lia.
      + rewrite zsum_add, IH by (intros j Hj; apply HL; right; exact Hj). rewrite (path_children st i g n HV) by (try exact En; apply HL; left; reflexivity).
        cbn [filter]. destruct (pathb G st i g && negb (i =? g)%nat); cbn [length]; lia.
  Qed.

  (** ** the invariant: [f] counts the visits of the first [M] nodes after [k] iterations *)
  Record counted (M : nat) (k : Z) (f : nat -> Z) st : Prop := {
    co_len : (M <= length st)%nat;
    co_vis : forall j n, nth_error st j = Some n -> (j < M)%nat -> n_visits n = f32_of_Z (f j) /\ 0 <= f j <= 1 + k * Z.of_nat (S nr);
    co_root : forall g n, nth_error st g = Some n -> (g < nr)%nat ->
      n_exp n = [] /\ (forall c, In c (n_children n) -> (c < M)%nat) /\ 1 + k <= f g
      /\ zsum (map f (n_children n)) + 1 <= f g /\ (n_children n <> [] -> k <= zsum (map f (n_children n)));
    (** one game only: nothing is lost *)
    co_one : nr = 1%nat -> forall n, nth_error st 0 = Some n -> f 0%nat = 1 + k /\ (n_children n <> [] -> zsum (map f (n_children n)) = k)
  }.

  Lemma owner_fun st j : inv st -> (j < length st)%nat -> exists g, owner roots st j g.
  Proof. intros [HF _] Hj. apply owner_ex; assumption. Qed.
  Lemma choice_fun (P : nat -> nat -> Prop) M : (forall j, (j < M)%nat -> exists g, P j g) -> exists h : nat -> nat, forall j, (j < M)%nat -> P j (h j).
  Proof.
    induction M as [|M IH]; intros H; [exists (fun _ => 0%nat); intros j Hj; lia|].
    destruct IH as [h Hh]; [intros j Hj; apply H; lia|]. destruct (H M ltac:(lia)) as [g Hg].
    exists (fun j => if (j =? M)%nat then g else h j). intros j Hj. destruct (Nat.eqb_spec j M) as [->|Hne]; [exact Hg|]. apply Hh. lia.
  Qed.

  Lemma counted_step M k f order st sel r st' sel' r' : inv st -> sel_ok G roots st sel -> Permutation order (seq 0 nr) -> (nr <= M)%nat -> 0 <= k ->
    1 + (k + 1) * Z.of_nat (S nr) <= 2 ^ 24 -> counted M k f st ->
    par_iter tsum nt cfg order (st, sel, r) = Ok (st', sel', r') ->
    exists f', counted M (k + 1) f' st'.
  Proof.
    intros HV Hsel HP HM Hk HB HC H.
    destruct (par_iter_inv G I HA tsum nt cfg roots order st sel r st' sel' r' HV Hsel HP H) as (HV' & HG & _ & Hsel' & _ & HN).
    assert (HL : (M <= length st)%nat) by apply HC.
    destruct (choice_fun (fun j g => owner roots st j g) M) as [own Hown]; [intros j Hj; apply owner_fun; [exact HV|lia]|].
    assert (Hownr : forall g, (g < nr)%nat -> own g = g).
    { intros g Hg. eapply owner_unique; [apply HV|apply Hown; lia|]. apply owner_root; [apply HV|exact Hg]. }
    assert (Hgain : forall j g, (j < M)%nat -> (g < nr)%nat -> 0 <= gain st sel g j <= Z.of_nat (S nr)).
    { intros j g Hj Hg. unfold gain. pose proof (events_len st sel g).
      assert (length (filter (fun i => pathb G st i j) (events st sel g)) <= length (events st sel g))%nat by (clear; generalize (events st sel g) as l0; induction l0 as [|x l IHl]; cbn [filter length]; [lia|]; destruct (pathb G st x j); cbn [length]; lia).
      lia. }
    exists (fun j => f j + gain st sel (own j) j).
    constructor.
    - destruct HG as [HG _]. lia.
    - intros j n' En' Hj. destruct (nth_error_ex _ st j ltac:(lia)) as [n En].
      destruct (HN j n (own j) En (Hown j Hj)) as (n2 & En2 & Hv). rewrite En' in En2. injection En2 as <-.
      fold (any_unf st) in Hv. rewrite gain_eq in Hv. destruct (co_vis _ _ _ _ HC j n En Hj) as [Hf Hr].
      specialize (Hgain j (own j) Hj (proj1 (Hown j Hj))). unfold gain in *. rewrite Hv, Hf, more_int by nia. split; [reflexivity|nia].
    - intros g n' En' Hg. destruct (forest_root_lt _ _ _ _ (proj1 HV) Hg) as (n & s & En & _).
      destruct (co_root _ _ _ _ HC g n En Hg) as (He & Hch & H1 & H2 & H3).
      destruct HG as (_ & HGn & _). destruct (HGn g n En) as (n2 & En2 & _ & _ & _ & _ & _ & _ & Hkeep & _). rewrite En' in En2. injection En2 as <-.
      destruct (Hkeep He) as [Hc' He']. rewrite Hc'. rewrite (Hownr g Hg).
      assert (Hgc : forall c, In c (n_children n) -> own c = g).
      { intros c Hc. eapply owner_unique; [apply HV|apply Hown, Hch, Hc|]. split; [exact Hg|].
        destruct (forest_child_gt _ _ _ _ _ _ (proj1 HV) En Hc) as (_ & cn & Ecn & Hpar & _). eapply path_up; [exact Ecn|exact Hpar|]. eapply path_here. exact En. }
      assert (Hsum : zsum (map (fun j => f j + gain st sel (own j) j) (n_children n)) = zsum (map f (n_children n)) + zsum (map (fun c => gain st sel g c) (n_children n))).
      { rewrite <- zsum_add. apply zsum_map_ext. intros c Hc. rewrite (Hgc c Hc). reflexivity. }
      pose proof (count_children st (events st sel g) g n HV (fun i => events_lt st sel g i HV Hsel Hg) En) as Hcc.
      rewrite Hsum. unfold gain. rewrite Hcc.
      destruct (events_leaf st sel g HV Hg) as (i & ni & Hi & Eni & Hci & Hoi).
      assert (Hpi : pathb G st i g = true) by (apply pathb_spec; [eapply forest_parents_down; apply HV|eapply nth_error_lt; exact Eni|apply Hoi]).
      assert (Hle : forall L, (length (filter (fun i => pathb G st i g && negb (i =? g)%nat) L) <= length (filter (fun i => pathb G st i g) L))%nat)
        by (induction L as [|x l IHl]; cbn [filter]; [lia|]; destruct (pathb G st x g), (negb (x =? g)%nat); cbn [andb length]; lia).
      assert (Hone : forall (p : nat -> bool) L, In i L -> p i = true -> (1 <= length (filter p L))%nat).
      { intros p L HiL Hp. assert (Hin : In i (filter p L)) by (apply filter_In; auto). destruct (filter p L); [destruct Hin|cbn; lia]. }
      specialize (Hle (events st sel g)). pose proof (Hone (fun i => pathb G st i g) (events st sel g) Hi Hpi) as Hg1. cbv beta in Hg1.
      split; [exact He'|]. split; [exact Hch|]. split; [lia|]. split; [lia|].
      intros Hne. specialize (H3 Hne). assert (Hig : i <> g) by (intros ->; rewrite En in Eni; injection Eni as <-; contradiction).
      pose proof (Hone (fun i => pathb G st i g && negb (i =? g)%nat) (events st sel g) Hi) as Hg2. cbv beta in Hg2. rewrite Hpi in Hg2.
      apply Nat.eqb_neq in Hig. rewrite Hig in Hg2. specialize (Hg2 eq_refl). lia.
    - intros H1r n' En'. destruct (forest_root_lt _ _ _ 0%nat (proj1 HV) ltac:(lia)) as (n & s & En & _).
      destruct (co_root _ _ _ _ HC 0%nat n En ltac:(lia)) as (He & Hch & H1 & H2 & H3).
      destruct (co_one _ _ _ _ HC H1r n En) as [Hf0 Hz].
      destruct HG as (_ & HGn & _). destruct (HGn 0%nat n En) as (n2 & En2 & _ & _ & _ & _ & _ & _ & Hkeep & _). rewrite En' in En2. injection En2 as <-.
      destruct (Hkeep He) as [Hc' He']. rewrite Hc'. rewrite (Hownr 0%nat ltac:(lia)).
      destruct (pick_spec G I HA cfg roots st 0%nat HV ltac:(lia)) as (i & ni & o & Ep & _ & Eni & Hci & Hoi & _).
      assert (Hev : events st sel 0 = [i]).
      { unfold events, any_unf. rewrite H1r. cbn [seq existsb map]. unfold unfinished, slot. rewrite Ep. destruct o; reflexivity. }
      assert (Hpi : pathb G st i 0 = true) by (apply pathb_spec; [eapply forest_parents_down; apply HV|eapply nth_error_lt; exact Eni|apply Hoi]).
      assert (Hgc : forall c, In c (n_children n) -> own c = 0%nat).
      { intros c Hc. pose proof (proj1 (Hown c (Hch c Hc))). lia. }
      assert (Hsum : zsum (map (fun j => f j + gain st sel (own j) j) (n_children n)) = zsum (map f (n_children n)) + zsum (map (fun c => gain st sel 0 c) (n_children n))).
      { rewrite <- zsum_add. apply zsum_map_ext. intros c Hc. rewrite (Hgc c Hc). reflexivity. }
      split.
      + unfold gain. rewrite Hev. cbn [filter]. rewrite Hpi. cbn [length]. lia.
      + intros Hne. specialize (Hz Hne). rewrite Hsum. unfold gain. rewrite Hev.
        rewrite (count_children st [i] 0 n HV) by (try exact En; intros j [<-|[]]; eapply nth_error_lt; exact Eni).
        cbn [filter]. rewrite Hpi. assert (Hig : (i =? 0)%nat = false) by (apply Nat.eqb_neq; intros ->; rewrite En in Eni; injection Eni as <-; contradiction).
        rewrite Hig. cbn. lia.
  Qed.
  Lemma counted_loop M order : Permutation order (seq 0 nr) -> (nr <= M)%nat -> forall j k f st sel r st' sel' r',
    inv st -> sel_ok G roots st sel -> 0 <= k -> 1 + (k + Z.of_nat j) * Z.of_nat (S nr) <= 2 ^ 24 -> counted M k f st ->
    par_loop tsum nt cfg j order (st, sel, r) = Ok (st', sel', r') -> inv st' /\ exists f', counted M (k + Z.of_nat j) f' st'.
  Proof.
    intros HP HM. induction j as [|j IH]; intros k f st sel r st' sel' r' HV Hsel Hk HB HC H; cbn [par_loop] in H.
    - injection H as <- <- <-. split; [exact HV|]. exists f. rewrite Z.add_0_r. exact HC.
    - destruct (par_iter tsum nt cfg order (st, sel, r)) as [[[st1 sel1] r1]|] eqn:E; cbn [bind] in H; [|discriminate].
      destruct (counted_step M k f order st sel r st1 sel1 r1 HV Hsel HP HM Hk ltac:(nia) HC E) as [f1' HC1].
      destruct (par_iter_inv G I HA tsum nt cfg roots order st sel r st1 sel1 r1 HV Hsel HP E) as (HV1 & _ & _ & Hsel1 & _).
      destruct (IH (k + 1) f1' st1 sel1 r1 st' sel' r' HV1 Hsel1 ltac:(lia) ltac:(nia) HC1 H) as [HV' [f' HC']].
      split; [exact HV'|]. exists f'. replace (k + Z.of_nat (S j)) with (k + 1 + Z.of_nat j) by lia. exact HC'.
  Qed.
End D.

Section E.
  Variable G : Game.
  Variable I : St G -> Prop.
  Hypothesis HA : alpha_game G I.
  Variable tsum : list f32 -> f32.
  Variable dirichlet : nat -> f32 -> rng -> list f32 * rng.
  Variable nt : net.
  Variable cfg : mcfg.

  Lemma parallel_counted ss order r st r' : (forall s, In s ss -> I s) -> Permutation order (seq 0 (length ss)) ->
    1 + Z.of_nat (iterations cfg) * Z.of_nat (S (length ss)) <= 2 ^ 24 ->
    alpha_mcts_parallel tsum dirichlet nt cfg order [] ss r = Ok (st, r') ->
    inv G I ss st /\ exists M f, (length ss <= M)%nat /\ counted G ss M (Z.of_nat (iterations cfg)) f st.
  Proof.
    intros HI HP HB H. unfold alpha_mcts_parallel in H.
    destruct (par_init tsum dirichlet nt cfg ss r) as [[st0 r0]|] eqn:E0; cbn [bind] in H; [|discriminate].
    destruct (par_loop tsum nt cfg (iterations cfg) order (st0, repeat 0%nat (length ss), r0)) as [[[st1 sel1] r1]|] eqn:El; cbn [bind] in H; [|discriminate].
    injection H as <- <-. pose proof (par_init_nonempty _ _ _ _ _ _ _ _ _ E0) as Hne.
    destruct (par_init_inv G I HA tsum dirichlet nt cfg ss r st0 r0 E0 HI) as (HV & HC & HR & HZ).
    assert (HM : (length ss <= length st0)%nat).
    { destruct ss as [|s0 ss']; [congruence|]. destruct (HR (length ss') ltac:(cbn; lia)) as (n & En & _). apply nth_error_lt in En. cbn. lia. }
    pose (f0' := fun j : nat => if (j <? length ss)%nat then 1 else 0).
    assert (Hgt : forall g n c, nth_error st0 g = Some n -> (g < length ss)%nat -> In c (n_children n) -> (length ss <= c < length st0)%nat).
    { intros g n c En Hg Hc. destruct (forest_child_gt _ _ _ _ _ _ (proj1 HV) En Hc) as ([_ Hlt] & cn & Ecn & Hpar & _).
      destruct (Nat.lt_ge_cases c (length ss)) as [Hcr|Hcr]; [|lia].
      destruct (forest_root_lt _ _ _ _ (proj1 HV) Hcr) as (m & s & Em & _ & Hpm & _). congruence. }
    assert (Hzs : forall g n, nth_error st0 g = Some n -> (g < length ss)%nat -> zsum (map f0' (n_children n)) = 0).
    { intros g n En Hg. specialize (Hgt g n). induction (n_children n) as [|c l IHl]; [reflexivity|]. cbn [map]. rewrite zsum_cons, IHl.
      - unfold f0'. destruct (Nat.ltb_spec c (length ss)); [|reflexivity]. specialize (Hgt c En Hg (or_introl eq_refl)). lia.
      - intros d E1 E2 Hd. apply Hgt; [exact E1|exact E2|right; exact Hd]. }
    destruct (counted_loop G I HA tsum nt cfg ss (length st0) order HP HM (iterations cfg) 0 f0' st0 (repeat 0%nat (length ss)) r0 st1 sel1 r1 HV) as [HV1 [f HCf]].
    - apply (sel0_ok G I); assumption.
    - lia.
    - nia.
    - constructor.
      + lia.
      + intros j n En Hj. unfold f0'. destruct (Nat.ltb_spec j (length ss)) as [Hjr|Hjr].
        * destruct (HR j Hjr) as (n' & En' & Hv & _). rewrite En in En'. injection En' as <-. rewrite Hv. split; [reflexivity|lia].
        * rewrite (HZ j n En Hjr). split; [reflexivity|lia].
      + intros g n En Hg. destruct (HR g Hg) as (n' & En' & Hv & He & _). rewrite En in En'. injection En' as <-.
        split; [exact He|]. split; [intros c Hc; apply (Hgt g n c En Hg Hc)|]. rewrite (Hzs g n En Hg). unfold f0'.
        destruct (Nat.ltb_spec g (length ss)); [|lia]. lia.
      + intros H1 n En. rewrite (Hzs 0%nat n En ltac:(lia)). unfold f0'. destruct (Nat.ltb_spec 0 (length ss)); [|lia]. lia.
    - exact El.
    - split; [exact HV1|]. exists (length st0), f. split; [exact HM|]. exact HCf.
  Qed.
End E.
