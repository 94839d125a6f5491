(** * VersusProof: a match never panics except where said, and keeps its books. *)
From Coq Require Import Permutation.
From Verif Require Import Base BaseFacts F32 F32Facts RoundFacts Tensor TensorFacts GameModel McModel McSpec McProof McProof2
  AlphaModel AlphaSpec AlphaProof AlphaPar AlphaPar2 AlphaPar3 AlphaCount SampleModel SampleFacts SumFacts ProbFacts VisitSpec VisitFacts
  SelfModel SelfSpec SelfProof VersusModel VersusSpec.
Require Import ZifyBool ZifyNat.

(** ** HashMap *)
Section Hash.
  Variable A : Type.
  Implicit Types (l : list (Z * A)).
  Lemma hget_in l k v : NoDup (map fst l) -> In (k, v) l -> hget k l = Some v.
  Proof.
    induction l as [|[k' a] l IH]; intros HN Hin; [destruct Hin|]. cbn [map fst] in HN. inversion HN as [|? ? Hx HN']; subst. cbn [hget].
    destruct Hin as [[= -> ->]|Hin]; [rewrite Z.eqb_refl; reflexivity|]. destruct (Z.eqb_spec k' k) as [->|_]; [|auto].
    exfalso. apply Hx. apply (in_map fst) in Hin. exact Hin.
  Qed.
  Lemma hset_fst l k v : map fst (hset k v l) = map fst l.
  Proof. induction l as [|[k' a] l IH]; [reflexivity|]. cbn [hset]. destruct (k' =? k); cbn [map fst]; congruence. Qed.
  (** setting a key replaces its entry in place *)
  Lemma hset_forall2 (B : Type) (R R' : Z * B -> Z * A -> Prop) (E : list (Z * B)) l k v : (forall e e', R e e' -> fst e = fst e') -> NoDup (map fst E) ->
    Forall2 R E l -> (forall b a, In (k, b) E -> R (k, b) (k, a) -> R' (k, b) (k, v)) -> (forall e e', In e E -> R e e' -> fst e <> k -> R' e e') -> Forall2 R' E (hset k v l).
  Proof.
    intros Hfst. revert l. induction E as [|[k0 b] E IH]; intros l HN HF Hk Hn; inversion HF as [|? [k1 a] ? l' HR HF']; subst; [constructor|].
    pose proof (Hfst _ _ HR) as Ef. cbn [fst] in Ef. subst k1. cbn [map fst] in HN. inversion HN as [|? ? Hx HN']; subst. cbn [hset].
    destruct (Z.eqb_spec k0 k) as [->|Hne].
    - constructor; [apply (Hk b a); [left; reflexivity|exact HR]|].
      assert (HE : forall e, In e E -> fst e <> k) by (intros e He Ee; apply Hx; rewrite <- Ee; apply in_map, He).
      clear -HF' Hn HE. induction HF' as [|e e' E l HR HF IH]; [constructor|]. constructor.
      + apply Hn; [right; left; reflexivity|exact HR|apply HE; left; reflexivity].
      + apply IH; [|intros e0 He0; apply HE; right; exact He0]. intros e0 e0' [<-|He0]; [apply Hn; left; reflexivity|apply Hn; right; right; exact He0].
    - constructor; [apply Hn; [left; reflexivity|exact HR|exact Hne]|]. apply IH; [exact HN'|exact HF'| |].
      + intros b0 a0 Hin. apply Hk. right. exact Hin.
      + intros e e' He. apply Hn. right. exact He.
  Qed.
  Lemma hremove_perm l k v : hget k l = Some v -> Permutation l ((k, v) :: hremove k l).
  Proof.
    induction l as [|[k' a] l IH]; intros H; [discriminate|]. cbn [hget hremove] in *. destruct (Z.eqb_spec k' k) as [->|_].
    - injection H as ->. reflexivity.
    - rewrite (IH H) at 1. apply perm_swap.
  Qed.
End Hash.

Lemma Forall2_perm (A B : Type) (R : A -> B -> Prop) l l' l2 : Permutation l' l2 -> Forall2 R l l' -> exists l1, Permutation l l1 /\ Forall2 R l1 l2.
Proof.
  intros HP. revert l. induction HP as [|x l' l2 HP IH|x y l'|l' l2 l3 HP1 IH1 HP2 IH2]; intros l HF.
  - exists l. auto.
  - inversion HF as [|a ? l0 ? Ha HF']; subst. destruct (IH _ HF') as (l1 & H1 & H2). exists (a :: l1). split; [apply perm_skip; exact H1|constructor; assumption].
  - inversion HF as [|a ? l0 ? Ha HF']; subst. inversion HF' as [|b ? l1 ? Hb HF'']; subst. exists (b :: a :: l1). split; [apply perm_swap|]. repeat constructor; assumption.
  - destruct (IH1 _ HF) as (l4 & H1 & H2). destruct (IH2 _ H2) as (l5 & H3 & H4). exists l5. split; [etransitivity; eassumption|exact H4].
Qed.
Lemma Forall2_app_r (A B : Type) (R : A -> B -> Prop) l b1 b2 : Forall2 R l (b1 ++ b2) -> exists l1 l2, l = l1 ++ l2 /\ Forall2 R l1 b1 /\ Forall2 R l2 b2.
Proof. intros H. apply Forall2_app_inv_r in H. destruct H as (l1 & l2 & H1 & H2 & ->). exists l1, l2. auto. Qed.

Lemma Forall2_nth_l (A B : Type) (R : A -> B -> Prop) l l' q x : Forall2 R l l' -> nth_error l q = Some x -> exists y, nth_error l' q = Some y /\ R x y.
Proof. intros H. revert q. induction H as [|a b l l' Hab _ IH]; intros [|q] E; try discriminate; cbn in *; [injection E as <-; eauto|apply IH, E]. Qed.

Lemma Forall2_nth_and (A B : Type) (R Q : A -> B -> Prop) l l' : Forall2 R l l' -> (forall q x y, nth_error l q = Some x -> nth_error l' q = Some y -> Q x y) -> Forall2 (fun x y => R x y /\ Q x y) l l'.
Proof. induction 1 as [|x y l l' H _ IH]; intros HQ; constructor; [split; [exact H|apply (HQ 0%nat); reflexivity]|]. apply IH. intros q. apply (HQ (S q)). Qed.
Lemma F2_length (A B : Type) (R : A -> B -> Prop) l l' : Forall2 R l l' -> length l = length l'.
Proof. induction 1; cbn; congruence. Qed.

(** ** the counters of won games: f64 counts exactly up to 400 *)
Lemma f64_count_all : forallb (fun k => f64_as_usize (f64_of_Z (Z.of_nat k)) =? Z.of_nat k) (seq 0 401) = true.
Proof. vm_compute. reflexivity. Qed.
Lemma f64_as k : 0 <= k <= 400 -> f64_as_usize (f64_of_Z k) = k.
Proof.
  intros Hk. pose proof f64_count_all as H. rewrite forallb_forall in H. specialize (H (Z.to_nat k) ltac:(apply in_seq; lia)).
  rewrite Z2Nat.id in H by lia. apply Z.eqb_eq in H. exact H.
Qed.
Definition sf_eqb (x y : spec_float) : bool :=
  match x, y with
  | S754_finite s m e, S754_finite s' m' e' => Bool.eqb s s' && Pos.eqb m m' && Z.eqb e e'
  | _, _ => false
  end.
Lemma sf_eqb_eq x y : sf_eqb x y = true -> x = y.
Proof.
  destruct x as [| | |s m e], y as [| | |s' m' e']; cbn; try discriminate. intros H.
  apply andb_true_iff in H. destruct H as [H H3]. apply andb_true_iff in H. destruct H as [H1 H2].
  apply eqb_prop in H1. apply Pos.eqb_eq in H2. apply Z.eqb_eq in H3. subst. reflexivity.
Qed.
Lemma f64_succ_all : forallb (fun k => sf_eqb (dadd (f64_of_Z (Z.of_nat k)) (f64_of_Z 1)) (f64_of_Z (Z.of_nat k + 1))) (seq 0 401) = true.
Proof. vm_compute. reflexivity. Qed.
Lemma f64_succ k : 0 <= k <= 400 -> dadd (f64_of_Z k) (f64_of_Z 1) = f64_of_Z (k + 1).
Proof.
  intros Hk. pose proof f64_succ_all as H. rewrite forallb_forall in H. specialize (H (Z.to_nat k) ltac:(apply in_seq; lia)).
  rewrite Z2Nat.id in H by lia. apply sf_eqb_eq. exact H.
Qed.

Lemma times_app w l l' : times w (l ++ l') = times w l + times w l'.
Proof. unfold times. rewrite count_occ_app. lia. Qed.
Lemma times_one w v : times w [v] = if v =? w then 1 else 0.
Proof. unfold times. cbn. destruct (Z.eq_dec v w) as [->|Hn]; [rewrite Z.eqb_refl; reflexivity|destruct (Z.eqb_spec v w); [contradiction|reflexivity]]. Qed.
Lemma times_bound l : 0 <= times (-1) l /\ 0 <= times 1 l /\ times (-1) l + times 1 l <= Z.of_nat (length l).
Proof.
  unfold times. induction l as [|x l IH]; [cbn; lia|]. cbn [count_occ length]. destruct (Z.eq_dec x (-1)), (Z.eq_dec x 1); lia.
Qed.
Lemma times_perm w l l' : Permutation l l' -> times w l = times w l'.
Proof. intros H. unfold times. f_equal. apply (Permutation_count_occ Z.eq_dec). exact H. Qed.

Section S.
  Variable G : Game.
  Variable I : St G -> Prop.
  Variable ln : f32 -> f32.
  Variable tsum : list f32 -> f32.
  Hypothesis HS : tsum_ok tsum.
  Variable dirichlet : nat -> f32 -> rng -> list f32 * rng.
  Hypothesis HDir : forall k a rr, length (fst (dirichlet k a rr)) = k.
  Variable unif : f64 -> rng -> f64 * rng.
  Hypothesis HUnif : unif_ok unif.
  Variable tpow : f32 -> f32.
  Hypothesis HPow : pow_ok tpow.
  Variable cfg : mcfg.
  Hypothesis HAl : SFltb f0 (dir_alpha cfg) = true.
  Hypothesis HIt : (0 < iterations cfg)%nat.
  Hypothesis HB : 1 + Z.of_nat (iterations cfg) * 401 <= 2 ^ 24.
  Variable hash : nat -> list (Z * (St G * vgame G)) -> list (Z * (St G * vgame G)).
  Hypothesis HHash : forall j l, Permutation (hash j l) l.
  Variable order : nat -> bool -> nat -> list nat.
  Hypothesis HOrder : forall j b n, Permutation (order j b n) (seq 0 n).
  Hypothesis HMG : match_game I.
  Let HPG := mg_play _ _ HMG.
  Let HA := pg_alpha _ _ HPG.
  Let HGood := ag_good _ _ HA.

  Notation agent_plays := (agent_plays ln tsum dirichlet unif tpow cfg).
  (** what the agent [p] may answer *)
  Definition choice0 (t : agent) (s : St G) (m : Mv G) : Prop :=
    (m = g_empty G /\ (g_valid G s = Ok [] \/ (t = AModel /\ exists ps, target tpow s ps /\ Forall (fun y => y = f0) ps)))
    \/ exists vm, g_valid G s = Ok vm /\ In m vm.
  Definition choice (p : vplayer) (s : St G) (m : Mv G) : Prop := choice0 (pl_type p) s m /\ agent_plays p s m.
  (** the panic of the tree search on a position without moves *)
  Definition search_stuck (t : agent) (p : panic) : Prop :=
    t = AMcts /\ p = PExplicit /\ exists s, I s /\ g_winner G s = None /\ g_valid G s = Ok [].

  Lemma each_ok (f : St G -> rng -> res (Mv G * rng)) (q : vplayer) : forall l r,
    (forall s r, In s l -> (exists m r', f s r = Ok (m, r') /\ choice q s m) \/ exists p, f s r = Panic p /\ search_stuck (pl_type q) p) ->
    (exists ms r', each f l r = Ok (ms, r') /\ Forall2 (choice q) l ms) \/ exists p, each f l r = Panic p /\ search_stuck (pl_type q) p.
  Proof.
    induction l as [|s l IH]; intros r Hf; [left; exists [], r; split; [reflexivity|constructor]|]. cbn [each].
    destruct (Hf s r (or_introl eq_refl)) as [(m & r1 & E & Hc)|(p & E & Hp)].
    - rewrite E. cbn [bind]. destruct (IH r1) as [(ms & r2 & E2 & HF)|(p & E2 & Hp)]; [intros; apply Hf; right; assumption| |].
      + rewrite E2. cbn [bind]. left. do 2 eexists. split; [reflexivity|]. constructor; assumption.
      + rewrite E2. cbn [bind]. right. eauto.
    - rewrite E. cbn [bind]. right. eauto.
  Qed.
  Lemma random_ok s r : I s -> exists m r', random_action s r = Ok (m, r') /\ choice0 ARandom s m.
  Proof.
    intros Hs. unfold random_action. destruct (good_valid _ _ HGood s Hs) as [vm Ev]. rewrite Ev. cbn [bind].
    destruct (choose vm r) as [o r1] eqn:Ec. do 2 eexists. split; [reflexivity|]. destruct o as [m|].
    - right. exists vm. split; [exact Ev|]. eapply choose_In. exact Ec.
    - left. split; [reflexivity|]. left. apply choose_None in Ec. destruct Ec as [-> _]. exact Ev.
  Qed.
  Lemma model_ok rows (st : store G) p row n vm s r : I s -> nth_error (map (map tpow) rows) p = Some (map tpow row) -> n_state n = s -> g_valid G s = Ok vm ->
    (n_children n = [] <-> vm = []) -> length row = asize G -> (vm <> [] -> Forall unit32 row /\ visit_row st n vm row) ->
    exists m r', model_action tsum unif (map (map tpow) rows) (p, n) r = Ok (m, r') /\ choice0 AModel s m /\ drawn tsum unif (map tpow row) s m.
  Proof.
    intros Hs Ep Est Hv Hce HL Hrow. unfold model_action. cbn [fst snd]. rewrite (idx_nth _ _ _ _ Ep). cbn [bind].
    destruct (n_children n) as [|c0 ch] eqn:Ech.
    - rewrite orb_true_r. do 2 eexists. split; [reflexivity|]. split; [left; split; [reflexivity|]; left; rewrite Hv, (proj1 Hce eq_refl); reflexivity|].
      unfold drawn. rewrite Hv, (proj1 Hce eq_refl), orb_true_r. reflexivity.
    - assert (Hne : vm <> []) by (intros E; apply Hce in E; discriminate E). destruct (Hrow Hne) as [Hun HVR].
      assert (HT : target tpow s (map tpow row)) by (exists st, n, vm, row; auto).
      assert (Hun' : Forall unit32 (map tpow row)).
      { apply Forall_map. eapply Forall_impl; [|exact Hun]. intros x Hx. apply HPow, Hx. }
      assert (Hvn : match g_valid G s with Ok [] => true | _ => false end = false) by (rewrite Hv; destruct vm; [contradiction|reflexivity]).
      unfold drawn. rewrite Hvn, !orb_false_r. destruct (SFeqb (tsum (map tpow row)) f0) eqn:Ez.
      + do 2 eexists. split; [reflexivity|]. split; [|reflexivity]. left. split; [reflexivity|]. right. split; [reflexivity|]. exists (map tpow row).
        split; [exact HT|apply (sum_zero tsum); assumption].
      + pose proof (not_zero_exists tsum _ HS Ez) as Hex. pose proof (pg_size _ _ HPG) as Hsz.
        destruct (select_ok unif (map tpow row) r HUnif ltac:(rewrite map_length; lia) Hun' Hex) as (a & r1 & Ea & Hlt & Hnz).
        rewrite Ea. cbn [bind].
        assert (Hrz : nth a row f0 <> f0).
        { intros Hz. apply Hnz. rewrite map_length in Hlt. rewrite nth_indep with (d' := tpow f0) by (rewrite map_length; lia). rewrite map_nth, Hz. apply HPow. }
        destruct (vr_off _ _ _ _ _ HVR a Hrz) as (m & Hm & Em & Dm). rewrite Dm. cbn [bind]. do 2 eexists. split; [reflexivity|].
        split; [right; exists vm; auto|]. exists a, r, r1. rewrite <- Est. split; [exact Ea|exact Dm].
  Qed.

  Lemma models_ok rows (st : store G) : forall ss ns p r, Forall I ss -> length ns = length ss ->
    (forall q s, nth_error ss q = Some s -> exists n vm row, nth_error ns q = Some n /\ n_state n = s /\ g_valid G s = Ok vm
       /\ nth_error rows (p + q) = Some row /\ (n_children n = [] <-> vm = []) /\ length row = asize G /\ (vm <> [] -> Forall unit32 row /\ visit_row st n vm row)) ->
    exists ms r', each (model_action tsum unif (map (map tpow) rows)) (combine (seq p (length ns)) ns) r = Ok (ms, r') /\ Forall2 (choice0 AModel) ss ms
      /\ forall q s m, nth_error ss q = Some s -> nth_error ms q = Some m -> exists row, nth_error rows (p + q) = Some row /\ drawn tsum unif (map tpow row) s m.
  Proof.
    induction ss as [|s ss IH]; intros ns p r HI HL Hq.
    - destruct ns; [|discriminate]. exists [], r. split; [reflexivity|]. split; [constructor|]. intros [|q] s m E; discriminate E.
    - destruct ns as [|n ns]; [discriminate|]. inversion HI as [|? ? Hs HI']; subst. cbn [length seq combine each].
      destruct (Hq 0%nat s eq_refl) as (n' & vm & row & A1 & A2 & A3 & A4 & A5 & A6 & A7). cbn in A1. injection A1 as <-. rewrite Nat.add_0_r in A4.
      destruct (model_ok rows st p row n vm s r) as (m & r1 & E & Hc & Hd); [exact Hs|rewrite nth_error_map, A4; reflexivity|assumption..|].
      rewrite E. cbn [bind]. destruct (IH ns (S p) r1 HI') as (ms & r2 & E2 & HF & HDr); [cbn in HL; lia| |].
      + intros q s' Hs'. replace (S p + q)%nat with (p + S q)%nat by lia. apply (Hq (S q)). exact Hs'.
      + rewrite E2. cbn [bind]. do 2 eexists. split; [reflexivity|]. split; [constructor; assumption|]. intros [|q] s' m' Hs' Hm'; cbn in Hs', Hm'.
        * injection Hs' as <-. injection Hm' as <-. rewrite Nat.add_0_r. eauto.
        * replace (p + S q)%nat with (S p + q)%nat by lia. exact (HDr q s' m' Hs' Hm').
  Qed.

  Lemma actions_ok ord p ss r : (forall n, Permutation (ord n) (seq 0 n)) -> player_ok G p -> Forall (fun s => I s /\ g_winner G s = None) ss -> (length ss <= 400)%nat ->
    (exists ms r', get_actions_for_player ln tsum dirichlet unif tpow cfg ord p ss r = Ok (ms, r') /\ Forall2 (choice p) ss ms)
    \/ exists q, get_actions_for_player ln tsum dirichlet unif tpow cfg ord p ss r = Panic q /\ search_stuck (pl_type p) q.
  Proof.
    intros Hord [Hnone Hmodel] HI HL. unfold get_actions_for_player. destruct ss as [|s0 ss0]; [left; exists [], r; split; [reflexivity|constructor]|].
    remember (s0 :: ss0) as ss eqn:Ess. assert (Hne : ss <> []) by (rewrite Ess; discriminate). clear s0 ss0 Ess.
    assert (HI1 : Forall I ss) by (eapply Forall_impl; [|exact HI]; cbn; tauto).
    destruct (pl_type p) eqn:Et.
    - rewrite <- Et. apply (each_ok _ p). intros s r0 Hin. left. rewrite Forall_forall in HI1. destruct (random_ok s r0 (HI1 s Hin)) as (m & r' & E & Hc). exists m, r'. split; [exact E|].
      unfold choice, VersusSpec.agent_plays. rewrite Et. split; [exact Hc|]. destruct Hc as [[-> [Hv|[H _]]]|Hv]; [left; auto|discriminate H|right; exact Hv].
    - rewrite <- Et. apply (each_ok _ p). intros s r0 Hin. rewrite Forall_forall in HI. destruct (HI s Hin) as [Hs Hw].
      destruct (search_total G ln I HGood s (g_player G s) cfg r0) as [(m & r' & E & _ & Hm)|[E Hst]]; [apply (ag_player _ _ HA); exact Hs|exact Hs| |].
      + left. exists m, r'. split; [exact E|]. unfold choice, VersusSpec.agent_plays. rewrite Et. split; [right; apply Hm; assumption|eauto].
      + right. exists PExplicit. split; [exact E|]. rewrite Et. repeat split; exact Hst.
    - left. destruct (Hmodel eq_refl) as (nt & Ent & HNet). rewrite Ent. cbn [unwrap bind]. rewrite Forall_forall in HI1.
      destruct (parallel_ok G I HA tsum dirichlet nt cfg ss (ord (length ss)) r Hne HI1 HNet HAl HDir (Hord _)) as (st & r1 & E1).
      rewrite E1. cbn [bind].
      destruct (parallel_rows G I HA tsum HS dirichlet nt cfg ss (ord (length ss)) r st r1 HI1 (Hord _)) as (HLst & Hroots & rows & Erows & HLr & Hrows); [nia|exact E1|].
      rewrite Hroots, Erows. cbn [bind].
      assert (HM : exists ms r', each (model_action tsum unif (map (map tpow) rows)) (combine (seq 0 (length (firstn (length ss) st))) (firstn (length ss) st)) r1 = Ok (ms, r')
        /\ Forall2 (choice0 AModel) ss ms /\ forall q s m, nth_error ss q = Some s -> nth_error ms q = Some m -> exists row, nth_error rows (0 + q) = Some row /\ drawn tsum unif (map tpow row) s m);
      [apply (models_ok rows st)|destruct HM as (ms & r2 & E2 & HF & HD); exists ms, r2; split; [exact E2|]].
      + rewrite Forall_forall. exact HI1.
      + rewrite firstn_length. lia.
      + intros q s Hq. cbn [Nat.add]. destruct (Hrows q s Hq) as (n & vm & row & A1 & A2 & A3 & A4 & A5 & A6 & A7 & _). exists n, vm, row.
        split; [rewrite nth_firstn by (first [exact dirichlet|exact nt|exact cfg|apply nth_error_lt in Hq; exact Hq]); exact A1|]. repeat (split; [assumption|]). intros Hv. apply A7; assumption.
      + unfold choice. rewrite Et. apply Forall2_nth_and; [exact HF|]. intros q s m Hq Hm. destruct (HD q s m Hq Hm) as (row & Hrow & Hd).
        unfold VersusSpec.agent_plays. rewrite Et. exists nt, ss, q, (ord (length ss)), r, st, r1, rows, row.
        split; [exact Ent|]. split; [exact Hq|]. split; [apply Hord|]. split; [exact E1|]. split; [exact Erows|]. split; [exact Hrow|exact Hd].
    - contradiction.
  Qed.

  (** ** one round *)
  Variables p1 p2 : vplayer.
  Hypothesis HP1 : player_ok G p1.
  Hypothesis HP2 : player_ok G p2.
  Notation t1 := (pl_type p1).
  Notation t2 := (pl_type p2).
  Notation may := (plays ln tsum dirichlet unif tpow cfg p1 p2).
  Notation vmoved := (vmoved may).
  Notation vskipped := (vskipped may tpow t1 t2).
  Notation vhist := (vhist may tpow t1 t2).
  Notation vended := (vended may tpow t1 t2).
  Notation won_by := (won_by t1 t2).
  Notation entry := (Z * (St G * vgame G))%type.
  Definition st_of (e : entry) : St G := fst (snd e).
  Definition gm_of (e : entry) : vgame G := snd (snd e).

  Definition ended1 (j : nat) (s : St G) (w : Z) : Prop :=
    exists s', vmoved s s' /\ (g_winner G s' = Some w \/ (g_winner G s' = None /\ 400 <= shown (S j) /\ w = 0)).
  Definition cont1 (j : nat) (s s' : St G) : Prop :=
    vskipped s s' \/ (vmoved s s' /\ g_winner G s' = None /\ shown (S j) < 400).
  (** how the entry [e] changed to [e'], with the games [todo] still to come and those of [rw] finished *)
  Definition changed (j : nat) (todo : list Z) (rw : list (Z * Z)) (e e' : entry) : Prop :=
    fst e = fst e' /\ (In (fst e) todo -> e' = e)
    /\ (forall w, In (fst e, w) rw -> gm_of e' = set_winner (won_by w) (gm_of e) /\ ended1 j (st_of e) w)
    /\ (~ In (fst e) todo -> ~ In (fst e) (map fst rw) -> gm_of e' = gm_of e /\ cont1 j (st_of e) (st_of e') /\ I (st_of e') /\ g_id G (st_of e') = g_id G (st_of e)
           /\ (g_winner G (st_of e) = None -> g_winner G (st_of e') = None)).
  Record vacc_ok (j : nat) (E : list entry) (n1 n2 : Z) (todo : list Z) (rw : list (Z * Z)) (a : vacc G) : Prop := {
    va_games : Forall2 (changed j todo rw) E (v_games a);
    va_rem : map fst rw = v_rem a;
    va_nodup : NoDup (map fst rw ++ todo);
    va_sub : incl (map fst rw) (map fst E);
    va_w1 : v_w1 a = f64_of_Z (n1 + times (-1) (map snd rw));
    va_w2 : v_w2 a = f64_of_Z (n2 + times 1 (map snd rw))
  }.

  Lemma changed_keys j todo rw E l : Forall2 (changed j todo rw) E l -> map fst l = map fst E.
  Proof. induction 1 as [|e e' E l H _ IH]; [reflexivity|]. cbn [map]. rewrite IH. f_equal. symmetry. apply H. Qed.

  Lemma vstep_ok j E n1 n2 m s g i todo rw a : NoDup (map fst E) -> 0 <= n1 -> 0 <= n2 -> n1 + n2 + Z.of_nat (length E) <= 400 ->
    vacc_ok j E n1 n2 (i :: todo) rw a -> In (i, (s, g)) E -> g_id G s = i -> I s -> choice (if g_player G s =? -1 then p1 else p2) s m ->
    exists a' rw', vs_step t1 t2 (shown (S j)) a (m, s) = Ok a' /\ vacc_ok j E n1 n2 todo rw' a'.
  Proof.
    intros HNE Hn1 Hn2 HLE [HF Hrem HN Hsub Hw1 Hw2] HinE Hid Hs Hc. unfold vs_step. rewrite Hid.
    assert (Hget : hget i (v_games a) = Some (s, g)).
    { apply hget_in; [rewrite (changed_keys _ _ _ _ _ HF); exact HNE|]. destruct (In_nth_error _ _ HinE) as [q Hq].
      destruct (Forall2_nth_l _ _ _ _ _ _ _ HF Hq) as (e' & Hq' & Hch). apply nth_error_In in Hq'. destruct Hch as (_ & Hch & _).
      rewrite Hch in Hq' by (left; reflexivity). exact Hq'. }
    rewrite Hget. cbn [unwrap bind].
    assert (Hni : ~ In i (map fst rw) /\ ~ In i todo /\ NoDup (map fst rw ++ todo)).
    { apply NoDup_remove in HN. destruct HN as [HN Hi]. rewrite in_app_iff in Hi. tauto. }
    destruct Hni as (Hirw & Hit & HN').
    (* the game goes on *)
    assert (Hgo : forall s' r', cont1 j s s' -> I s' -> g_id G s' = i -> (g_winner G s = None -> g_winner G s' = None) ->
      vacc_ok j E n1 n2 todo rw (mkVacc (hset i (s', g) (v_games a)) (v_w1 a) (v_w2 a) (v_rem a) r')).
    { intros s' r' Hct HI' Hid' Hw. constructor; cbn [v_games v_w1 v_w2 v_rem v_rng]; try assumption.
      apply (hset_forall2 _ _ (changed j (i :: todo) rw)); [intros e e' He; apply He|exact HNE|exact HF| |].
      - intros b a0 Hin _. assert (b = (s, g)) as ->.
        { pose proof (hget_in _ _ _ _ HNE Hin) as E1. pose proof (hget_in _ _ _ _ HNE HinE) as E2. congruence. }
        split; [reflexivity|]. cbn [fst]. split; [intros H; contradiction|]. split; [intros w H; exfalso; apply Hirw; apply (in_map fst) in H; exact H|].
        intros _ _. unfold gm_of, st_of. cbn [fst snd]. rewrite Hid. auto.
      - intros e e' _ (H1 & H2 & H3 & H4) Hne. split; [exact H1|]. split; [intros H; apply H2; right; exact H|]. split; [exact H3|].
        intros H5 H6. apply H4; [|exact H6]. intros [H|H]; [apply Hne; symmetry; exact H|apply H5, H]. }
    (* the game ends *)
    assert (Hstop : forall s' r' w x1 x2, ended1 j s w -> x1 = f64_of_Z (n1 + times (-1) (map snd (rw ++ [(i, w)]))) -> x2 = f64_of_Z (n2 + times 1 (map snd (rw ++ [(i, w)]))) ->
      vacc_ok j E n1 n2 todo (rw ++ [(i, w)]) (mkVacc (hset i (s', set_winner (won_by w) g) (v_games a)) x1 x2 (v_rem a ++ [i]) r')).
    { intros s' r' w x1 x2 Hend Hx1 Hx2. constructor; cbn [v_games v_w1 v_w2 v_rem v_rng].
      - apply (hset_forall2 _ _ (changed j (i :: todo) rw)); [intros e e' He; apply He|exact HNE|exact HF| |].
        + intros b a0 Hin _. assert (b = (s, g)) as ->.
          { pose proof (hget_in _ _ _ _ HNE Hin) as E1. pose proof (hget_in _ _ _ _ HNE HinE) as E2. congruence. }
          split; [reflexivity|]. cbn [fst]. split; [intros H; contradiction|]. split.
          * intros w' H. apply in_app_or in H. destruct H as [H|[[= <-]|[]]]; [exfalso; apply Hirw; apply (in_map fst) in H; exact H|]. split; [reflexivity|exact Hend].
          * intros _ H. exfalso. apply H. rewrite map_app. apply in_or_app. right. left. reflexivity.
        + intros e e' _ (H1 & H2 & H3 & H4) Hne. split; [exact H1|]. split; [intros H; apply H2; right; exact H|]. split.
          * intros w' H. apply in_app_or in H. destruct H as [H|[[= H]|[]]]; [apply H3, H|]. congruence.
          * intros H5 H6. apply H4; [intros [H|H]; [apply Hne; symmetry; exact H|apply H5, H]|]. intros H. apply H6. rewrite map_app. apply in_or_app. left. exact H.
      - rewrite map_app, Hrem. reflexivity.
      - rewrite map_app. cbn [map fst]. rewrite <- app_assoc. exact HN.
      - rewrite map_app. intros x Hx. apply in_app_or in Hx. destruct Hx as [Hx|[<-|[]]]; [apply Hsub, Hx|apply (in_map fst) in HinE; exact HinE].
      - exact Hx1.
      - exact Hx2. }
    assert (HLrw : (length rw < length E)%nat).
    { assert (HNi : NoDup (i :: map fst rw)) by (constructor; [exact Hirw|]; eapply NoDup_app_remove_r'; exact HN').
      assert (Hincl : incl (i :: map fst rw) (map fst E)) by (intros x [<-|Hx]; [apply (in_map fst) in HinE; exact HinE|apply Hsub, Hx]).
      pose proof (NoDup_incl_length HNi Hincl) as HL. cbn [length] in HL. rewrite !map_length in HL. lia. }
    assert (Hmv : forall vm m', g_valid G s = Ok vm -> In m' vm -> g_mv_eqb G m' (g_empty G) = false).
    { intros vm m' Hv Hin. destruct (g_mv_eqb G m' (g_empty G)) eqn:Eq; [|reflexivity]. apply (pg_eqb_eq _ _ HPG) in Eq. subst m'.
      destruct (mg_empty _ _ HMG s vm Hs Hv Hin). }
    destruct Hc as [Hc Hmay]. change (may s m) in Hmay.
    replace (pl_type (if g_player G s =? -1 then p1 else p2)) with (on_turn t1 t2 s) in Hc by (unfold on_turn; destruct (g_player G s =? -1); reflexivity).
    destruct Hc as [[-> Hwhy]|(vm & Hv & Hin)].
    - rewrite (pg_eqb _ _ HPG). destruct (good_skip _ _ HGood s (v_rng a) Hs) as (s' & r' & Es & HI'). rewrite Es. cbn [bind].
      eexists. exists rw. split; [reflexivity|]. apply Hgo; [|exact HI'| |].
      + left. split; [exact Hmay|]. exists (v_rng a), r'. split; [exact Es|exact Hwhy].
      + rewrite (mg_id_skip _ _ HMG _ _ _ _ Es). exact Hid.
      + intros Hw. rewrite (pg_skip _ _ HPG _ _ _ _ Hs Es). exact Hw.
    - rewrite (Hmv vm m Hv Hin), Hv. cbn [bind].
      assert (Hcont : existsb (fun v => g_mv_eqb G v m) vm = true) by (apply existsb_exists; exists m; split; [exact Hin|apply (pg_eqb _ _ HPG)]).
      rewrite Hcont. destruct (good_apply _ _ HGood s vm m (v_rng a) Hs Hv Hin) as (s' & r' & Ea & HI'). rewrite Ea. cbn [bind].
      assert (HM : vmoved s s') by (exists vm, m, (v_rng a), r'; auto).
      pose proof (times_bound (map snd rw)) as (Hb1 & Hb2 & Hb3). rewrite map_length in Hb3.
      assert (Hfin : forall w, ended1 j s w -> exists a' rw',
        (if w =? -1 then Ok (mkVacc (hset i (s', set_winner t1 g) (v_games a)) (dadd (v_w1 a) (f64_of_Z 1)) (v_w2 a) (v_rem a ++ [i]) r')
         else if w =? 1 then Ok (mkVacc (hset i (s', set_winner t2 g) (v_games a)) (v_w1 a) (dadd (v_w2 a) (f64_of_Z 1)) (v_rem a ++ [i]) r')
         else Ok (mkVacc (hset i (s', set_winner ANone g) (v_games a)) (v_w1 a) (v_w2 a) (v_rem a ++ [i]) r')) = Ok a' /\ vacc_ok j E n1 n2 todo rw' a').
      { intros w He. exists (mkVacc (hset i (s', set_winner (won_by w) g) (v_games a)) (f64_of_Z (n1 + times (-1) (map snd (rw ++ [(i, w)]))))
          (f64_of_Z (n2 + times 1 (map snd (rw ++ [(i, w)])))) (v_rem a ++ [i]) r'), (rw ++ [(i, w)]).
        split; [|apply Hstop; [exact He|reflexivity|reflexivity]]. rewrite map_app, !times_app. cbn [map snd]. rewrite !times_one.
        unfold VersusSpec.won_by. rewrite Hw1, Hw2. destruct (Z.eqb_spec w (-1)) as [->|H1].
        - rewrite f64_succ by lia. change (-1 =? 1) with false. cbv iota. rewrite Z.add_0_r, Z.add_assoc. reflexivity.
        - destruct (Z.eqb_spec w 1) as [->|H2]; [rewrite f64_succ by lia|]; rewrite ?Z.add_0_r, ?Z.add_assoc; reflexivity. }
      destruct (g_winner G s') as [w|] eqn:Ew.
      + apply Hfin. exists s'. auto.
      + destruct (Z.leb_spec round_limit (shown (S j))) as [Hl|Hl]; unfold round_limit in Hl.
        * apply Hfin. exists s'. split; [exact HM|]. right. auto.
        * eexists. exists rw. split; [reflexivity|]. apply Hgo; [right; auto|exact HI'| |intros _; exact Ew].
          rewrite (mg_id_apply _ _ HMG _ _ _ _ _ Ea). exact Hid.
  Qed.

  Lemma vsteps_ok j E n1 n2 : NoDup (map fst E) -> 0 <= n1 -> 0 <= n2 -> n1 + n2 + Z.of_nat (length E) <= 400 -> forall l rw a,
    vacc_ok j E n1 n2 (map (fun e => g_id G (snd e)) l) rw a ->
    (forall m s, In (m, s) l -> I s /\ choice (if g_player G s =? -1 then p1 else p2) s m /\ exists g, In (g_id G s, (s, g)) E) ->
    exists a' rw', mfold (vs_step t1 t2 (shown (S j))) l a = Ok a' /\ vacc_ok j E n1 n2 [] rw' a'.
  Proof.
    intros HNE Hn1 Hn2 HLE. induction l as [|[m s] l IH]; intros rw a HR Hl; [exists a, rw; split; [reflexivity|exact HR]|].
    cbn [mfold map snd] in *. destruct (Hl m s (or_introl eq_refl)) as (Hs & Hc & g & Hg).
    destruct (vstep_ok j E n1 n2 m s g (g_id G s) (map (fun e => g_id G (snd e)) l) rw a HNE Hn1 Hn2 HLE HR Hg eq_refl Hs Hc) as (a1 & rw1 & E1 & HR1).
    rewrite E1. cbn [bind]. apply (IH rw1 a1 HR1). intros m' s' Hin. apply Hl. right. exact Hin.
  Qed.

  Lemma removes_ok : forall rem (l : list entry) (played : list (vgame G)), NoDup (map fst l) -> NoDup rem -> incl rem (map fst l) ->
    exists fin l', mfold (vs_remove (G := G)) rem (l, played) = Ok (l', played ++ map gm_of fin) /\ Permutation l (fin ++ l') /\ map fst fin = rem.
  Proof.
    induction rem as [|i rem IH]; intros l played HN HNr Hsub.
    - exists [], l. cbn. rewrite app_nil_r. auto.
    - cbn [mfold]. unfold vs_remove at 1. cbn [fst snd]. assert (Hi : In i (map fst l)) by (apply Hsub; left; reflexivity).
      apply in_map_iff in Hi. destruct Hi as ([i' v] & Ei & Hin). cbn in Ei. subst i'. pose proof (hget_in _ _ _ _ HN Hin) as Hget. rewrite Hget. cbn [unwrap bind].
      pose proof (hremove_perm _ _ _ _ Hget) as HP. inversion HNr as [|? ? Hni HNr']; subst.
      assert (HNl : NoDup (map fst (hremove i l))).
      { assert (H : NoDup (i :: map fst (hremove i l))) by (apply (Permutation_NoDup (Permutation_map fst HP)); exact HN). inversion H; assumption. }
      destruct (IH (hremove i l) (played ++ [snd v]) HNl HNr') as (fin & l' & E & HP' & Ef).
      { intros x Hx. assert (Hx' : In x (map fst l)) by (apply Hsub; right; exact Hx). apply (Permutation_in _ (Permutation_map fst HP)) in Hx'.
        destruct Hx' as [<-|Hx']; [contradiction|exact Hx']. }
      exists ((i, v) :: fin), l'. rewrite E. split; [|split].
      + rewrite <- app_assoc. reflexivity.
      + rewrite HP. cbn [app]. apply perm_skip. exact HP'.
      + cbn [map fst]. rewrite Ef. reflexivity.
  Qed.

  (** ** the loop *)
  Variable starts : list (vgame G).
  Hypothesis HLs : length starts = 400%nat.
  Definition final (e : vgame G * Z) : vgame G := set_winner (won_by (snd e)) (fst e).
  Record vs_ok (j : nat) (a : vstate G) (D : list (vgame G * Z)) : Prop := {
    vk_perm : Permutation (map fst D ++ map gm_of (s_games a)) starts;
    vk_played : s_played a = map final D;
    vk_ended : Forall (fun e => vended (vg_init (fst e)) (snd e)) D;
    vk_w1 : s_w1 a = f64_of_Z (times (-1) (map snd D));
    vk_w2 : s_w2 a = f64_of_Z (times 1 (map snd D));
    vk_games : Forall (fun e => g_id G (st_of e) = fst e /\ I (st_of e) /\ g_winner G (st_of e) = None /\ vhist (vg_init (gm_of e)) j (st_of e)) (s_games a);
    vk_nodup : NoDup (map fst (s_games a));
    vk_count : s_count a = shown j
  }.

  (** the panics a match can end with *)
  Definition match_panic (j : nat) (q : panic) : Prop :=
    search_stuck t1 q \/ search_stuck t2 q \/ (q = POverflow /\ g_pr G = Debug /\ 2 ^ 31 <= Z.of_nat (S j)).

  Lemma count_ok j : i32 (g_pr G) (shown j + 1) = Ok (shown (S j)) \/ (i32 (g_pr G) (shown j + 1) = Panic POverflow /\ g_pr G = Debug /\ 2 ^ 31 <= Z.of_nat (S j)).
  Proof.
    unfold i32, shown. pose proof (Z.mod_pos_bound (Z.of_nat j + 2 ^ 31) (2 ^ 32) eq_refl) as Hb.
    pose proof (Z.mod_pos_bound (Z.of_nat (S j) + 2 ^ 31) (2 ^ 32) eq_refl) as Hb'.
    pose proof (Z.div_mod (Z.of_nat j + 2 ^ 31) (2 ^ 32) ltac:(discriminate)) as Hd. pose proof (Z.div_mod (Z.of_nat (S j) + 2 ^ 31) (2 ^ 32) ltac:(discriminate)) as Hd'.
    set (q := (Z.of_nat j + 2 ^ 31) / 2 ^ 32) in *. set (q' := (Z.of_nat (S j) + 2 ^ 31) / 2 ^ 32) in *.
    set (x := (Z.of_nat j + 2 ^ 31) mod 2 ^ 32) in *. set (x' := (Z.of_nat (S j) + 2 ^ 31) mod 2 ^ 32) in *. clearbody q q' x x'.
    destruct ((- 2 ^ 31 <=? x - 2 ^ 31 + 1) && (x - 2 ^ 31 + 1 <? 2 ^ 31)) eqn:E.
    - left. f_equal. lia.
    - destruct (g_pr G); [right|left].
      + split; [reflexivity|]. split; [reflexivity|]. lia.
      + f_equal. replace (x - 2 ^ 31 + 1 + 2 ^ 31) with (2 ^ 32) by lia. rewrite Z.mod_same by discriminate. lia.
  Qed.

  Lemma combine_choice t l ms m s : Forall2 (choice t) l ms -> In (m, s) (combine ms l) -> choice t s m /\ In s l.
  Proof.
    induction 1 as [|s0 m0 l ms Hc _ IH]; intros Hin; [destruct Hin|]. destruct Hin as [[= <- <-]|Hin]; [split; [exact Hc|left; reflexivity]|].
    destruct (IH Hin) as [H1 H2]. split; [exact H1|right; exact H2].
  Qed.
  Lemma combine_snd (A B : Type) (f : B -> Z) (l : list B) (ms : list A) : length ms = length l -> map (fun e => f (snd e)) (combine ms l) = map f l.
  Proof. revert ms. induction l as [|b l IH]; intros [|a ms] H; try discriminate; cbn; [reflexivity|]. rewrite IH; [reflexivity|cbn in H; lia]. Qed.
  Lemma filter_perm (A : Type) (f : A -> bool) (l : list A) : Permutation (filter f l ++ filter (fun x => negb (f x)) l) l.
  Proof.
    induction l as [|x l IH]; [constructor|]. cbn [filter]. destruct (f x); cbn [negb app]; [apply perm_skip, IH|].
    rewrite <- Permutation_middle. apply perm_skip, IH.
  Qed.

  Lemma finished_ok j rw Ef fin : Forall2 (changed j [] rw) Ef fin -> forall rw0, incl rw0 rw -> map fst fin = map fst rw0 ->
    (forall e, In e Ef -> vhist (vg_init (gm_of e)) j (st_of e)) ->
    map gm_of fin = map final (combine (map gm_of Ef) (map snd rw0)) /\ length Ef = length rw0
      /\ Forall (fun e => vended (vg_init (fst e)) (snd e)) (combine (map gm_of Ef) (map snd rw0)).
  Proof.
    induction 1 as [|e e' Ef fin Hc _ IH]; intros [|[i w] rw0] Hsub Hf Hh; try discriminate; [repeat constructor|]. cbn [map fst snd combine length] in *.
    injection Hf as Hi Hf. destruct (IH rw0) as (H1 & H2 & H3); [intros x Hx; apply Hsub; right; exact Hx|exact Hf|intros x Hx; apply Hh; right; exact Hx|].
    destruct Hc as (Hk & _ & Hc & _). destruct (Hc w) as [Hg Hend]; [rewrite Hk, Hi; apply Hsub; left; reflexivity|].
    split; [rewrite H1, Hg; reflexivity|]. split; [rewrite H2; reflexivity|]. constructor; [|exact H3]. cbn [fst snd].
    specialize (Hh e (or_introl eq_refl)). destruct Hend as (s' & Hm & [Hw|(Hw & Hl & ->)]); [eapply e_won; eassumption|eapply e_limit; eassumption].
  Qed.

  Lemma vround_ok j a D : vs_ok j a D ->
    (exists a' D', vs_round ln tsum dirichlet unif tpow cfg hash order p1 p2 j a = Ok a' /\ vs_ok (S j) a' (D ++ D'))
    \/ exists q, vs_round ln tsum dirichlet unif tpow cfg hash order p1 p2 j a = Panic q /\ match_panic j q.
  Proof.
    intros HK. unfold vs_round. set (E := s_games a) in *. set (states := map (fun e => fst (snd e)) (hash j E)).
    assert (HPs : Permutation states (map st_of E)) by (apply Permutation_map, HHash).
    pose proof (vk_games _ _ _ HK) as HE. fold E in HE. rewrite Forall_forall in HE.
    assert (HLE : (length D + length E = 400)%nat).
    { pose proof (Permutation_length (vk_perm _ _ _ HK)) as HL. rewrite app_length, !map_length in HL. fold E in HL. lia. }
    assert (Hst : forall s, In s states -> I s /\ g_winner G s = None /\ exists g, In (g_id G s, (s, g)) E).
    { intros s Hs. apply (Permutation_in _ HPs), in_map_iff in Hs. destruct Hs as ([i [s' g]] & E1 & Hin). cbn in E1. subst s'.
      destruct (HE _ Hin) as (H1 & H2 & H3 & _). unfold st_of in *. cbn [fst snd] in *. split; [exact H2|]. split; [exact H3|]. exists g. rewrite H1. exact Hin. }
    set (g1 := filter (fun s => g_player G s =? -1) states). set (g2 := filter (fun s => negb (g_player G s =? -1)) states).
    assert (HPg : Permutation (g1 ++ g2) states) by apply filter_perm.
    assert (HLg : (length g1 + length g2 = length E)%nat).
    { rewrite <- app_length, (Permutation_length HPg), (Permutation_length HPs), map_length. reflexivity. }
    assert (HIg : forall s, In s g1 \/ In s g2 -> In s states) by (intros s Hs; apply (Permutation_in _ HPg), in_or_app, Hs).
    destruct (actions_ok (order j true) p1 g1 (s_rng a)) as [(ms1 & r1 & E1 & HF1)|(q & E1 & Hq)].
    { intros n. apply HOrder. } { exact HP1. }
    { apply Forall_forall. intros s Hs. destruct (Hst s (HIg s (or_introl Hs))) as (H1 & H2 & _). auto. } { lia. }
    2:{ right. exists q. rewrite E1. split; [reflexivity|]. left. exact Hq. }
    rewrite E1. cbn [bind].
    destruct (actions_ok (order j false) p2 g2 r1) as [(ms2 & r2 & E2 & HF2)|(q & E2 & Hq)].
    { intros n. apply HOrder. } { exact HP2. }
    { apply Forall_forall. intros s Hs. destruct (Hst s (HIg s (or_intror Hs))) as (H1 & H2 & _). auto. } { lia. }
    2:{ right. exists q. rewrite E2. split; [reflexivity|]. right. left. exact Hq. }
    rewrite E2. cbn [bind]. rewrite (vk_count _ _ _ HK).
    destruct (count_ok j) as [Ec|(Ec & Hov)]; rewrite Ec; cbn [bind].
    2:{ right. exists POverflow. split; [reflexivity|]. right. right. auto. }
    left. set (n1 := times (-1) (map snd D)). set (n2 := times 1 (map snd D)).
    pose proof (times_bound (map snd D)) as (Hb1 & Hb2 & Hb3). rewrite map_length in Hb3. fold n1 n2 in Hb1, Hb2, Hb3.
    set (l := combine ms1 g1 ++ combine ms2 g2).
    assert (Hids : map (fun e => g_id G (snd e)) l = map (g_id G) (g1 ++ g2)).
    { unfold l. rewrite !map_app, !combine_snd; [reflexivity| |]; symmetry; eapply F2_length; eassumption. }
    assert (HPk : Permutation (map (g_id G) (g1 ++ g2)) (map fst E)).
    { rewrite HPg, HPs, map_map. replace (map (fun e => g_id G (st_of e)) E) with (map fst E); [reflexivity|]. apply map_ext_in. intros e He. symmetry. apply HE, He. }
    destruct (vsteps_ok j E n1 n2 (vk_nodup _ _ _ HK) Hb1 Hb2 ltac:(lia) l [] (mkVacc E (s_w1 a) (s_w2 a) [] r2)) as (b & rw & Eb & HR).
    { constructor; cbn [v_games v_w1 v_w2 v_rem v_rng map app].
      - assert (Hsub : forall e, In e E -> In (fst e) (map (fun e => g_id G (snd e)) l)).
        { intros e He. rewrite Hids. apply (Permutation_in _ (Permutation_sym HPk)), in_map, He. }
        clear -Hsub. assert (Hall : forall (E0 : list entry), (forall e, In e E0 -> In (fst e) (map (fun e => g_id G (snd e)) l)) -> Forall2 (changed j (map (fun e => g_id G (snd e)) l) []) E0 E0).
        { induction E0 as [|e E0 IH]; intros H; constructor; [|apply IH; intros e' He'; apply H; right; exact He'].
          split; [reflexivity|]. split; [reflexivity|]. split; [intros w []|]. intros Hn. exfalso. apply Hn, H. left. reflexivity. }
        apply Hall, Hsub.
      - reflexivity.
      - rewrite Hids. apply (Permutation_NoDup (Permutation_sym HPk)). apply (vk_nodup _ _ _ HK).
      - intros x [].
      - rewrite (vk_w1 _ _ _ HK), Z.add_0_r. reflexivity.
      - rewrite (vk_w2 _ _ _ HK), Z.add_0_r. reflexivity. }
    { intros m s Hin. apply in_app_or in Hin.
      assert (Hcs : choice (if g_player G s =? -1 then p1 else p2) s m /\ In s states).
      { unfold on_turn. destruct Hin as [Hin|Hin].
        - destruct (combine_choice _ _ _ _ _ HF1 Hin) as [Hc Hs]. split; [|apply HIg; left; exact Hs]. apply filter_In in Hs. rewrite (proj2 Hs). exact Hc.
        - destruct (combine_choice _ _ _ _ _ HF2 Hin) as [Hc Hs]. split; [|apply HIg; right; exact Hs]. apply filter_In in Hs. destruct (g_player G s =? -1); [destruct Hs; discriminate|exact Hc]. }
      destruct (Hst s (proj2 Hcs)) as (H1 & _ & H3). split; [exact H1|]. split; [apply Hcs|exact H3]. }
    rewrite Eb. cbn [bind]. destruct HR as [HF Hrem HN Hsub Hw1 Hw2]. rewrite app_nil_r in HN.
    pose proof (changed_keys _ _ _ _ _ HF) as Hkeys.
    destruct (removes_ok (v_rem b) (v_games b) (s_played a)) as (fin & E' & Er & HPr & Efin).
    { rewrite Hkeys. apply (vk_nodup _ _ _ HK). } { rewrite <- Hrem. exact HN. } { rewrite <- Hrem, Hkeys. exact Hsub. }
    rewrite Er. cbn [bind].
    destruct (Forall2_perm _ _ _ _ _ _ HPr HF) as (E1' & HPE & HF'). apply Forall2_app_r in HF'. destruct HF' as (Ef & Eg & -> & HFf & HFg).
    assert (HNr : NoDup (map fst fin ++ map fst E')).
    { rewrite <- map_app. apply (Permutation_NoDup (Permutation_map fst HPr)). rewrite Hkeys. apply (vk_nodup _ _ _ HK). }
    assert (Hfe : forall e, In e Ef \/ In e Eg -> In e E) by (intros e He; apply (Permutation_in _ (Permutation_sym HPE)), in_or_app, He).
    rewrite <- Hrem in Efin.
    (* the finished games *)
    assert (HhE : forall e, In e E -> vhist (vg_init (gm_of e)) j (st_of e)) by (intros e He; apply HE, He).
    destruct (finished_ok j rw Ef fin HFf rw (incl_refl _) Efin) as (Hfin & HLf & HDf); [intros e He; apply HhE, Hfe; left; exact He|].
    set (D' := combine (map gm_of Ef) (map snd rw)) in *.
    assert (HD1 : map fst D' = map gm_of Ef) by (apply map_fst_combine; rewrite !map_length; rewrite HLf; apply le_n).
    assert (HD2 : map snd D' = map snd rw) by (apply map_snd_combine; rewrite !map_length; rewrite HLf; apply le_n).
    (* the other games *)
    assert (Hgo : map gm_of E' = map gm_of Eg /\ Forall (fun e => g_id G (st_of e) = fst e /\ I (st_of e) /\ g_winner G (st_of e) = None /\ vhist (vg_init (gm_of e)) (S j) (st_of e)) E').
    { assert (Hnr : forall e, In e E' -> ~ In (fst e) (map fst rw)).
      { intros e He Hin. rewrite <- Efin in Hin. revert HNr Hin. apply (in_map fst) in He. revert He. generalize (fst e) (map fst fin) (map fst E'). clear.
        intros x l l' H1 H2 H3. apply in_split in H3. destruct H3 as (u & v & ->). rewrite <- app_assoc in H2. apply (NoDup_remove_2 u (v ++ l') x) in H2.
        apply H2, in_or_app. right. apply in_or_app. right. exact H1. }
      assert (HhG : forall e, In e Eg -> g_id G (st_of e) = fst e /\ g_winner G (st_of e) = None /\ vhist (vg_init (gm_of e)) j (st_of e)).
      { intros e He. destruct (HE e (Hfe e (or_intror He))) as (H1 & _ & H2 & H3). auto. }
      clear -HFg Hnr HhG. induction HFg as [|e e' Eg E' Hc _ IH]; [split; [reflexivity|constructor]|].
      destruct IH as [IH1 IH2]; [intros x Hx; apply Hnr; right; exact Hx|intros x Hx; apply HhG; right; exact Hx|].
      destruct Hc as (H1 & _ & _ & H2). destruct H2 as (Hg & Hct & HI' & Hid & Hw); [intros []|rewrite H1; apply Hnr; left; reflexivity|].
      destruct (HhG e (or_introl eq_refl)) as (Hid0 & Hw0 & Hh). cbn [map]. split; [rewrite Hg, IH1; reflexivity|]. constructor; [|exact IH2].
      split; [congruence|]. split; [exact HI'|]. split; [apply Hw, Hw0|]. rewrite Hg. destruct Hct as [Hsk|(Hm & Hw' & Hl)].
      - eapply v_skip; eassumption.
      - eapply v_move; eassumption. }
    destruct Hgo as [Hg1 Hg2]. eexists. exists D'. split; [reflexivity|]. constructor; cbn [s_games s_played s_w1 s_w2 s_count s_rng].
    - rewrite map_app, HD1, Hg1, <- app_assoc, <- map_app, <- HPE. apply (vk_perm _ _ _ HK).
    - rewrite map_app, <- Hfin, (vk_played _ _ _ HK). reflexivity.
    - apply Forall_app. split; [apply (vk_ended _ _ _ HK)|exact HDf].
    - rewrite map_app, times_app, HD2. exact Hw1.
    - rewrite map_app, times_app, HD2. exact Hw2.
    - exact Hg2.
    - rewrite <- map_app in HNr. rewrite map_app in HNr. eapply nodup_app_r. exact HNr.
    - reflexivity.
  Qed.

  Notation round := (vs_round ln tsum dirichlet unif tpow cfg hash order p1 p2).
  Notation loop := (vs_loop ln tsum dirichlet unif tpow cfg hash order p1 p2).
  Lemma vrounds_ok : forall k j a a' D, vs_ok j a D -> mfold (fun a j => round j a) (seq j k) a = Ok a' -> exists D', vs_ok (j + k) a' D'.
  Proof.
    induction k as [|k IH]; intros j a a' D HK E; cbn [seq mfold] in E.
    - injection E as <-. exists D. rewrite Nat.add_0_r. exact HK.
    - destruct (vround_ok j a D HK) as [(a1 & D1 & E1 & HK1)|(q & E1 & _)]; rewrite E1 in E; cbn [bind] in E; [|discriminate].
      replace (j + S k)%nat with (S j + k)%nat by lia. eapply IH; eassumption.
  Qed.
  (** the loop returns when no game is left, or panics in one of the known ways, or is out of fuel
      with games left *)
  Lemma vloop_ok : forall fuel j a D, vs_ok j a D ->
    (exists a' D' k, loop fuel j a = Ok a' /\ vs_ok k a' D' /\ s_games a' = [] /\ (k <= j + fuel)%nat
       /\ mfold (fun a j => round j a) (seq j (k - j)) a = Ok a' /\ (j <= k)%nat)
    \/ (exists q k, loop fuel j a = Panic q /\ (k < j + fuel)%nat /\ match_panic k q)
    \/ (loop fuel j a = Panic PFuel /\ exists a', mfold (fun a j => round j a) (seq j fuel) a = Ok a' /\ s_games a' <> []).
  Proof.
    induction fuel as [|fuel IH]; intros j a D HK; cbn [vs_loop].
    - destruct (s_games a) as [|e l] eqn:Eg.
      + left. exists a, D, j. rewrite Nat.sub_diag. split; [reflexivity|]. split; [exact HK|]. split; [exact Eg|]. split; [lia|]. split; [reflexivity|lia].
      + right. right. split; [reflexivity|]. exists a. split; [reflexivity|]. rewrite Eg. discriminate.
    - destruct (s_games a) as [|e l] eqn:Eg.
      + left. exists a, D, j. rewrite Nat.sub_diag. split; [reflexivity|]. split; [exact HK|]. split; [exact Eg|]. split; [lia|]. split; [reflexivity|lia].
      + destruct (vround_ok j a D HK) as [(a1 & D1 & E1 & HK1)|(q & E1 & Hq)]; rewrite E1; cbn [bind seq mfold].
        * destruct (IH (S j) a1 _ HK1) as [(a' & D' & k & H1 & H2 & H3 & H4 & H5 & H6)|[(q & k & H1 & H2 & H3)|(H1 & a' & H2 & H3)]].
          -- left. exists a', D', k. split; [exact H1|]. split; [exact H2|]. split; [exact H3|]. split; [lia|]. split; [|lia].
             replace (k - j)%nat with (S (k - S j)) by lia. cbn [seq mfold]. rewrite E1. exact H5.
          -- right. left. exists q, k. split; [exact H1|]. split; [lia|exact H3].
          -- right. right. split; [exact H1|]. exists a'. rewrite E1. auto.
        * right. left. exists q, j. split; [reflexivity|]. split; [lia|exact Hq].
  Qed.
  Hypothesis HStart : forall i g, nth_error starts i = Some g -> exists id r r', g = vg_new id t1 t2 (vg_init g) /\ first_state i r = Ok (vg_init g, r').
  Lemma vresult_ok k a D : vs_ok k a D -> s_games a = [] -> exists res ws, vs_result p1 p2 a = Ok res /\ report may tpow t1 t2 res starts ws.
  Proof.
    intros HK Hg. pose proof (vk_perm _ _ _ HK) as HP. rewrite Hg in HP. cbn [map] in HP. rewrite app_nil_r in HP.
    apply Permutation_sym, Permutation_map_inv in HP. destruct HP as (D1 & E1 & HP1').
    assert (HL1 : length D1 = 400%nat) by (rewrite <- HLs, E1, map_length; reflexivity).
    assert (HLD : length D = 400%nat) by (rewrite (Permutation_length HP1'); exact HL1).
    pose proof (times_bound (map snd D)) as (Hb1 & Hb2 & Hb3). rewrite map_length, HLD in Hb3. change (Z.of_nat 400) with 400 in Hb3.
    assert (HT : forall w, times w (map snd D1) = times w (map snd D)) by (intros w; symmetry; apply times_perm, Permutation_map, HP1').
    unfold vs_result. rewrite (vk_w1 _ _ _ HK), (vk_w2 _ _ _ HK), !f64_as by lia. unfold usize at 1.
    set (w1 := times (-1) (map snd D)) in *. set (w2 := times 1 (map snd D)) in *.
    replace ((0 <=? w1 + w2) && (w1 + w2 <? 2 ^ 64)) with true by (symmetry; lia). cbn [bind]. unfold usize, num_games. change (Z.of_nat 400) with 400.
    replace ((0 <=? 400 - (w1 + w2)) && (400 - (w1 + w2) <? 2 ^ 64)) with true by (symmetry; lia). cbn [bind].
    eexists. exists (map snd D1). split; [reflexivity|]. constructor; cbn [r_games r_wins1 r_wins2 r_draws r_n r_winrate r_p1 r_p2]; rewrite ?HT; fold w1 w2; try reflexivity.
    - exact HLs.
    - exact HStart.
    - rewrite E1. assert (HE : Forall (fun e => vended (vg_init (fst e)) (snd e)) D1) by (apply (Permutation_Forall HP1'), (vk_ended _ _ _ HK)).
      clear -HE. induction HE; cbn; constructor; auto.
    - rewrite (vk_played _ _ _ HK), HP1', E1. apply Permutation_refl'.
      assert (HSt : forall e, In e D1 -> vg_p1 (fst e) = t1 /\ vg_p2 (fst e) = t2 /\ vg_turns (fst e) = []).
      { intros e He. assert (Hin : In (fst e) starts) by (rewrite E1; apply in_map, He). apply In_nth_error in Hin. destruct Hin as (i & Hi).
        destruct (HStart _ _ Hi) as (id & r & r' & Eg & _). rewrite Eg. repeat split; reflexivity. }
      clear -HSt. induction D1 as [|[g w] D1 IH]; [reflexivity|]. cbn [map combine fst snd]. rewrite IH by (intros e He; apply HSt; right; exact He).
      destruct (HSt (g, w) (or_introl eq_refl)) as (H1 & H2 & H3). cbn [fst] in H1, H2, H3. f_equal. unfold final, set_winner. cbn [fst snd]. rewrite H1, H2, H3. reflexivity.
    - lia.
    - split; reflexivity.
  Qed.
End S.

(** ** the start *)
Section Start.
  Variable G : Game.
  Variable I : St G -> Prop.
  Hypothesis HMG : match_game I.
  Variable nanoid : rng -> Z * rng.
  Variables t1 t2 : agent.
  Lemma first_games_ok : forall n i r, exists l r', first_games nanoid t1 t2 i n r = Ok (l, r')
    /\ Forall2 (fun i e => fst e = Z.of_nat i /\ I (st_of G e) /\ g_winner G (st_of G e) = None /\ g_id G (st_of G e) = Z.of_nat i
         /\ exists id r r', gm_of G e = vg_new id t1 t2 (st_of G e) /\ first_state i r = Ok (st_of G e, r')) (seq i n) l.
  Proof.
    induction n as [|n IH]; intros i r; [exists [], r; split; [reflexivity|constructor]|]. cbn [first_games seq].
    destruct (mg_first _ _ HMG i r) as (s & r1 & E & HI & Hw & Hid & _). rewrite E. cbn [bind]. destruct (nanoid r1) as [id r2] eqn:En.
    destruct (IH (S i) r2) as (l & r3 & El & HF). rewrite El. cbn [bind]. do 2 eexists. split; [reflexivity|]. constructor; [|exact HF].
    unfold st_of, gm_of. cbn [fst snd]. split; [reflexivity|]. split; [exact HI|]. split; [exact Hw|]. split; [exact Hid|]. exists id, r, r1. auto.
  Qed.
  Lemma first_games_begun : forall n i r l r', first_games nanoid t1 t2 i n r = Ok (l, r') -> begun t1 t2 nanoid i r (map (gm_of G) l).
  Proof.
    induction n as [|n IH]; intros i r l r' H; cbn [first_games] in H; [injection H as <- <-; constructor|].
    destruct (first_state i r) as [[s r1]|] eqn:E1; [|discriminate H]. cbn [bind] in H. destruct (nanoid r1) as [id r2] eqn:E2.
    destruct (first_games nanoid t1 t2 (S i) n r2) as [[l2 r3]|] eqn:E3; [|discriminate H]. cbn [bind] in H. injection H as <- <-.
    unfold gm_of. cbn [map snd]. eapply b_next; [exact E1|exact E2|]. eapply IH. exact E3.
  Qed.
End Start.
