(** * SelfProof: batched self-play never panics, ends, and keeps its books. *)
From Coq Require Import Permutation.
From Verif Require Import Base BaseFacts F32 F32Facts RoundFacts Tensor TensorFacts GameModel McModel McSpec McProof
  AlphaModel AlphaSpec AlphaProof AlphaPar AlphaPar2 AlphaPar3 AlphaCount SampleModel SampleFacts SumFacts ProbFacts VisitSpec VisitFacts
  SelfModel SelfSpec.
Require Import ZifyBool ZifyNat.

Lemma sums_zero l x : sums l x -> Forall (fun y => y = f0) l -> x = f0.
Proof.
  intros H HF. assert (E : l = map f32_of_Z (repeat 0 (length l))).
  { clear H. induction HF as [|y l Hy HF IH]; [reflexivity|]. cbn [length repeat map]. rewrite <- IH, Hy. reflexivity. }
  rewrite (sums_int l x H _ E); [rewrite zsum_repeat0; reflexivity|intros z Hz; apply repeat_spec in Hz; lia|rewrite zsum_repeat0; lia].
Qed.
Lemma not_zero_exists tsum l : tsum_ok tsum -> SFeqb (tsum l) f0 = false -> Exists (fun x => x <> f0) l.
Proof.
  intros HS H. destruct (Exists_dec (fun x => x <> f0) l) as [He|He]; [|exact He|].
  - intros x. assert (Hd : {x = f0} + {x <> f0}) by (unfold f0; cbn; destruct x as [[]|[]| |[] m e]; (left; reflexivity) || (right; discriminate)).
    destruct Hd; [right; auto|left; assumption].
  - exfalso. assert (HF : Forall (fun y => y = f0) l).
    { apply Forall_forall. intros y Hy. assert (Hd : {y = f0} + {y <> f0}) by (unfold f0; cbn; destruct y as [[]|[]| |[] m e]; (left; reflexivity) || (right; discriminate)).
      destruct Hd as [|Hne]; [assumption|]. exfalso. apply He, Exists_exists. eauto. }
    rewrite (sums_zero l _ (HS l) HF) in H. discriminate H.
Qed.

Lemma NoDup_app_remove_r' (A : Type) (l l' : list A) : NoDup (l ++ l') -> NoDup l.
Proof.
  induction l as [|x l IH]; intros H; [constructor|]. inversion H as [|? ? Hx HN]; subst. constructor; [|auto].
  intros Hin. apply Hx, in_or_app. left. exact Hin.
Qed.
Lemma nodup_app (A : Type) (l l' : list A) : NoDup l -> NoDup l' -> (forall x, In x l -> In x l' -> False) -> NoDup (l ++ l').
Proof.
  intros H H'. induction H as [|x l Hx HN IH]; intros Hd; [exact H'|]. cbn. constructor.
  - intros Hin. apply in_app_or in Hin. destruct Hin as [Hin|Hin]; [auto|apply (Hd x); [left; reflexivity|exact Hin]].
  - apply IH. intros y Hy. apply Hd. right. exact Hy.
Qed.
Lemma nodup_app_r (A : Type) (l l' : list A) : NoDup (l ++ l') -> NoDup l'.
Proof. induction l as [|x l IH]; intros H; [exact H|]. inversion H; auto. Qed.
Lemma idx_nth (A : Type) (l : list A) i x : nth_error l i = Some x -> idx l (Z.of_nat i) = Ok x.
Proof. intros H. unfold idx. destruct (Z.ltb_spec (Z.of_nat i) 0); [lia|]. rewrite Nat2Z.id, H. reflexivity. Qed.
Lemma upd_nth (A : Type) (l : list A) i v x : nth_error l i = Some x -> upd l (Z.of_nat i) v = Ok (set_nth l i v).
Proof. intros H. apply nth_error_lt in H. rewrite upd_ok by lia. rewrite Nat2Z.id. reflexivity. Qed.
Lemma mmap_get (G : Game) (st : store G) n : (n <= length st)%nat -> mmap (get_node st) (seq 0 n) = Ok (firstn n st).
Proof.
  intros H. assert (Hg : forall k p, (p + k <= length st)%nat -> mmap (get_node st) (seq p k) = Ok (firstn k (skipn p st))).
  { clear n H. induction k as [|k IH]; intros p Hp; [reflexivity|]. cbn [seq mmap]. unfold get_node at 1.
    destruct (nth_error_ex _ st p ltac:(lia)) as [x Ex]. rewrite Ex. cbn [bind]. rewrite IH by lia. cbn [bind].
    assert (E : skipn p st = x :: skipn (S p) st).
    { clear -Ex. revert st Ex. induction p as [|p IH]; intros [|y st] Ex; try discriminate; cbn in *; [congruence|]. apply IH. exact Ex. }
    rewrite E. reflexivity. }
  apply (Hg n 0%nat). lia.
Qed.

Section S.
  Variable G : Game.
  Variable I : St G -> Prop.
  Variable tsum : list f32 -> f32.
  Hypothesis HS : tsum_ok tsum.
  Variable dirichlet : nat -> f32 -> rng -> list f32 * rng.
  Hypothesis HDir : forall k a rr, length (fst (dirichlet k a rr)) = k.
  Variable unif : f64 -> rng -> f64 * rng.
  Hypothesis HUnif : unif_ok unif.
  Variable tpow : f32 -> f32.
  Hypothesis HPow : pow_ok tpow.
  Variable nt : net.
  Hypothesis HNet : net_ok G nt.
  Variable cfg : mcfg.
  Hypothesis HAl : SFltb f0 (dir_alpha cfg) = true.
  Hypothesis HIt : (0 < iterations cfg)%nat.
  Variable hash : nat -> list (nat * St G) -> list (nat * St G).
  Hypothesis HHash : forall j l, Permutation (hash j l) l.
  Variable order : nat -> nat -> list nat.
  Hypothesis HOrder : forall j n, Permutation (order j n) (seq 0 n).
  Hypothesis HPG : play_game I.
  Let HA := pg_alpha _ _ HPG.
  Notation moved := (moved tpow).
  Notation skipped := (skipped tpow).
  Notation history := (history tpow).
  Notation block := (block tpow).

  (** one game, one round *)
  Lemma sp_play_ok (st : store G) p row n vm s mem r : I s -> nth_error st p = Some n -> n_state n = s -> g_valid G s = Ok vm ->
    (n_children n = [] <-> vm = []) -> length row = asize G -> (vm <> [] -> Forall unit32 row /\ visit_row st n vm row) ->
    exists s' mem' w r', sp_play tsum unif st p (map tpow row) s mem r = Ok (s', mem', w, r') /\ I s'
      /\ ((skipped s s' /\ mem' = mem /\ w = None /\ g_winner G s' = g_winner G s)
          \/ exists x, moved s (map tpow row) x s' /\ mem' = mem ++ [mkFrag (g_player G s) (map tpow row) x] /\ w = g_winner G s').
  Proof.
    intros Hs En Est Hv Hce HL Hrow. unfold sp_play.
    assert (Hskip : forall P : Prop, (g_valid G s = Ok [] \/ exists ps, target tpow s ps /\ Forall (fun y => y = f0) ps) ->
      (forall s' r', g_skip G s r = Ok (s', r') -> I s' -> skipped s s' -> g_winner G s' = g_winner G s -> P) -> P).
    { intros P Hwhy HP. destruct (good_skip _ _ (ag_good _ _ HA) s r Hs) as (s' & r' & E & HI'). apply (HP s' r' E HI').
      - exists r, r'. split; assumption.
      - eapply pg_skip; eassumption. }
    destruct vm as [|v0 vm0] eqn:Evm.
    - (* no move *)
      assert (Hskipb : (if SFeqb (tsum (map tpow row)) f0 then Ok true else n <- get_node st p ;; Ok (match n_children n with [] => true | _ => false end)) = Ok true).
      { destruct (SFeqb (tsum (map tpow row)) f0); [reflexivity|]. unfold get_node. rewrite En. cbn [bind]. rewrite (proj2 Hce eq_refl). reflexivity. }
      rewrite Hskipb. cbn [bind]. apply Hskip; [left; exact Hv|]. intros s' r' E HI' Hsk Hw. rewrite E. cbn [bind].
      do 4 eexists. split; [reflexivity|]. split; [exact HI'|]. left. auto.
    - rewrite <- Evm in *. assert (Hne : vm <> []) by (rewrite Evm; discriminate). destruct (Hrow Hne) as [Hun HVR].
      assert (HT : target tpow s (map tpow row)) by (exists st, n, vm, row; auto).
      assert (Hun' : Forall unit32 (map tpow row)).
      { apply Forall_map. eapply Forall_impl; [|exact Hun]. intros x Hx. apply HPow, Hx. }
      destruct (SFeqb (tsum (map tpow row)) f0) eqn:Ez.
      + cbn [bind]. apply Hskip; [right; exists (map tpow row); split; [exact HT|apply (sum_zero tsum); assumption]|]. intros s' r' E HI' Hsk Hw. rewrite E. cbn [bind].
        do 4 eexists. split; [reflexivity|]. split; [exact HI'|]. left. auto.
      + unfold get_node. rewrite En. cbn [bind]. destruct (n_children n) as [|c0 ch] eqn:Ech; [exfalso; apply Hne, Hce; reflexivity|].
        pose proof (not_zero_exists tsum _ HS Ez) as Hex. pose proof (pg_size _ _ HPG) as Hsz.
        destruct (select_ok unif (map tpow row) r HUnif ltac:(rewrite map_length; lia) Hun' Hex) as (a & r1 & Ea & Hlt & Hnz).
        rewrite Ea. cbn [bind]. destruct (ag_tensor _ _ HA) as [sh Hsh]. destruct (Hsh s Hs) as (x & Ex & _). rewrite Ex. cbn [bind].
        assert (Hrz : nth a row f0 <> f0).
        { intros Hz. apply Hnz. rewrite map_length in Hlt. rewrite nth_indep with (d' := tpow f0) by (rewrite map_length; lia). rewrite map_nth, Hz. apply HPow. }
        destruct (vr_off _ _ _ _ _ HVR a Hrz) as (m & Hm & Em & Dm). rewrite Est in Em, Dm. rewrite Dm. cbn [bind]. rewrite Hv. cbn [bind].
        assert (Hcont : existsb (fun v => g_mv_eqb G v m) vm = true) by (apply existsb_exists; exists m; split; [exact Hm|apply (pg_eqb _ _ HPG)]).
        rewrite Hcont. destruct (good_apply _ _ (ag_good _ _ HA) s vm m r1 Hs Hv Hm) as (s' & r' & Eap & HI'). rewrite Eap. cbn [bind].
        do 4 eexists. split; [reflexivity|]. split; [exact HI'|]. right. exists x. split; [|split; reflexivity].
        exists vm, m, (Z.of_nat a), r1, r'. rewrite Nat2Z.id. split; [exact HT|]. split; [exact Hv|]. split; [exact Hm|]. split; [exact Em|]. split; [exact Hnz|]. split; assumption.
  Qed.

  Lemma label_scored w h : (forall f, In f h -> -127 <= fr_outcome f <= 127) -> mmap (label (G := G) w) h = Ok (scored w h).
  Proof.
    intros H. unfold scored. apply mmap_ok. intros f Hf. unfold label, score. destruct (w =? fr_outcome f); [reflexivity|].
    rewrite i8_ok by (specialize (H f Hf); lia). reflexivity.
  Qed.
  Lemma moved_player s0 h k s : I s0 -> history s0 h k s -> I s /\ (forall f, In f h -> -127 <= fr_outcome f <= 127).
  Proof.
    intros H0. induction 1 as [|h k s s' Hh IH (r & r' & E & _) _|h k s ps x s' Hh IH Hm _].
    - split; [exact H0|intros f []].
    - destruct IH as [IHs IHf]. split; [|exact IHf]. destruct (good_skip _ _ (ag_good _ _ HA) s r IHs) as (s2 & r2 & E2 & HI2). congruence.
    - destruct IH as [IHs IHf]. destruct Hm as (vm & m & c & r & r' & _ & Hv & Hm & _ & _ & _ & Ea). split.
      + destruct (good_apply _ _ (ag_good _ _ HA) s vm m r IHs Hv Hm) as (s2 & r2 & E2 & HI2). congruence.
      + intros f Hf. apply in_app_or in Hf. destruct Hf as [Hf|[<-|[]]]; [apply IHf, Hf|]. cbn [fr_outcome]. apply (ag_player _ _ HA s IHs).
  Qed.

  (** ** one round *)
  Variable starts : list (St G).
  Hypothesis HStarts : forall s, In s starts -> I s.
  Notation lim := (sim_limit cfg).

  (** the game [i] stands at [s] after [j] rounds *)
  Definition alive (mems : list (list frag)) (rounds : list nat) (j : nat) (e : nat * St G) : Prop :=
    exists s0 mem, nth_error starts (fst e) = Some s0 /\ nth_error mems (fst e) = Some mem /\ nth_error rounds (fst e) = Some j
      /\ history s0 mem j (snd e).
  (** finished games with what they contributed *)
  Definition closed (d : nat * list frag) : Prop := exists s0, nth_error starts (fst d) = Some s0 /\ block lim s0 (snd d).

  Record racc_ok (j : nat) (todo : list (nat * St G)) (a : racc) (done : list (nat * list frag)) (base : list frag) : Prop := {
    ra_todo : forall e, In e todo -> alive (a_mems a) (a_rounds a) j e;
    ra_all : a_all a = base ++ concat (map snd done);
    ra_done : Forall closed done;
    ra_rem : forall i, In i (a_rem a) <-> In i (map fst done);
    ra_out : forall e, In e (a_out a) -> In (fst e) (map fst done) \/ alive (a_mems a) (a_rounds a) (S j) e;
    ra_len : length (a_mems a) = length starts /\ length (a_rounds a) = length starts;
    ra_lim : (lim <= j)%nat -> forall e, In e (a_out a) -> In (fst e) (map fst done);
    ra_sub : NoDup (map fst done) /\ forall i, In i (map fst done) -> In i (map fst (a_out a))
  }.

  Lemma step_ok rows (st : store G) j p i s todo a done base : (j <= lim)%nat -> NoDup (map fst (a_out a) ++ map fst ((i, s) :: todo)) ->
    racc_ok j ((i, s) :: todo) a done base ->
    (exists n vm row, nth_error st p = Some n /\ n_state n = s /\ g_valid G s = Ok vm /\ nth_error rows p = Some row /\ (n_children n = [] <-> vm = [])
       /\ length row = asize G /\ (vm <> [] -> Forall unit32 row /\ visit_row st n vm row)) ->
    exists a' done', sp_step tsum unif cfg (map (map tpow) rows) st a (p, (i, s)) = Ok a' /\ racc_ok j todo a' done' base
      /\ map fst (a_out a') = map fst (a_out a) ++ [i].
  Proof.
    intros Hjl HN HR (n & vm & row & En & Est & Hv & Erow & Hce & HL & Hrow).
    destruct (ra_todo _ _ _ _ _ HR (i, s) (or_introl eq_refl)) as (s0 & mem & E0 & Emem & Ek & Hh). cbn [fst snd] in *.
    assert (HI0 : I s0) by (apply HStarts; eapply nth_error_In; exact E0).
    destruct (moved_player s0 mem j s HI0 Hh) as [HIs Hpl].
    unfold sp_step. rewrite (idx_nth _ (map (map tpow) rows) p (map tpow row)) by (rewrite nth_error_map, Erow; reflexivity). cbn [bind].
    rewrite (idx_nth _ _ _ _ Ek), (idx_nth _ _ _ _ Emem). cbn [bind].
    destruct (sp_play_ok st p row n vm s mem (a_rng a) HIs En Est Hv Hce HL Hrow) as (s' & mem' & w & r' & Ep & HI' & Hcase).
    rewrite Ep. cbn [bind]. rewrite (upd_nth _ _ _ _ _ Emem), (upd_nth _ _ _ _ _ Ek). cbn [bind].
    assert (Hwin : g_winner G s = None) by (inversion Hh; assumption).
    (* the new memory can be labelled *)
    assert (Hlab : forall w0, w = Some w0 -> mmap (label (G := G) w0) mem' = Ok (scored w0 mem')).
    { intros w0 _. apply label_scored. intros f Hf. destruct Hcase as [(_ & -> & _)|(x & _ & -> & _)]; [apply Hpl, Hf|].
      apply in_app_or in Hf. destruct Hf as [Hf|[<-|[]]]; [apply Hpl, Hf|]. apply (ag_player _ _ HA s HIs). }
    (* the pieces that follow do not touch the other games *)
    assert (Hni : forall e, In e todo -> fst e <> i).
    { intros e He <-. apply nodup_app_r in HN. cbn [map] in HN. inversion HN as [|? ? Hx _]; subst. apply Hx. cbn [fst]. apply in_map. exact He. }
    assert (Hno : ~ In i (map fst (a_out a))).
    { intros Hin. cbn [map fst] in HN. apply NoDup_remove_2 in HN. apply HN, in_or_app. left. exact Hin. }
    assert (Hnd : ~ In i (map fst done)) by (intros Hx; apply Hno, (proj2 (ra_sub _ _ _ _ _ HR)), Hx).
    set (mems' := set_nth (a_mems a) i mem'). set (rounds' := set_nth (a_rounds a) i (S j)).
    assert (Hother : forall jj e, fst e <> i -> alive (a_mems a) (a_rounds a) jj e -> alive mems' rounds' jj e).
    { intros jj e Hne (s1 & m1 & A1 & A2 & A3 & A4). exists s1, m1. unfold mems', rounds'. rewrite !nth_error_set_other by congruence. auto. }
    (* the two cases: the game stays or is closed with the block [b] *)
    assert (Hstay : forall all' rem', (j < lim)%nat -> history s0 mem' (S j) s' -> all' = a_all a -> rem' = a_rem a ->
      racc_ok j todo (mkAcc (a_out a ++ [(i, s')]) mems' all' rounds' rem' r') done base).
    { intros all' rem' Hj Hh' -> ->. constructor; cbn [a_out a_mems a_all a_rounds a_rem a_rng].
      - intros e He. apply Hother; [apply Hni, He|]. apply (ra_todo _ _ _ _ _ HR). right. exact He.
      - apply (ra_all _ _ _ _ _ HR).
      - apply (ra_done _ _ _ _ _ HR).
      - apply (ra_rem _ _ _ _ _ HR).
      - intros e He. apply in_app_or in He. destruct He as [He|[<-|[]]].
        + destruct (ra_out _ _ _ _ _ HR e He) as [H|H]; [left; exact H|right]. apply Hother; [intros Hx; apply Hno; rewrite <- Hx; apply in_map; exact He|exact H].
        + right. exists s0, mem'. cbn [fst snd]. unfold mems', rounds'. split; [exact E0|]. split; [apply nth_error_set_same; eapply nth_error_lt; exact Emem|]. split; [apply nth_error_set_same; eapply nth_error_lt; exact Ek|exact Hh'].
      - unfold mems', rounds'. rewrite !set_nth_len. apply (ra_len _ _ _ _ _ HR).
      - intros Hlim. lia.
      - split; [apply (ra_sub _ _ _ _ _ HR)|]. intros x Hx. rewrite map_app. apply in_or_app. left. apply (ra_sub _ _ _ _ _ HR), Hx. }
    assert (Hclose : forall b all' rem', block lim s0 b -> all' = a_all a ++ b -> (forall x, In x rem' <-> In x (a_rem a) \/ x = i) ->
      racc_ok j todo (mkAcc (a_out a ++ [(i, s')]) mems' all' rounds' rem' r') (done ++ [(i, b)]) base).
    { intros b all' rem' Hb -> Hrem. constructor; cbn [a_out a_mems a_all a_rounds a_rem a_rng].
      - intros e He. apply Hother; [apply Hni, He|]. apply (ra_todo _ _ _ _ _ HR). right. exact He.
      - rewrite map_app, concat_app, (ra_all _ _ _ _ _ HR). cbn. rewrite app_nil_r, app_assoc. reflexivity.
      - apply Forall_app. split; [apply (ra_done _ _ _ _ _ HR)|]. constructor; [|constructor]. exists s0. auto.
      - intros x. rewrite Hrem, map_app, in_app_iff, (ra_rem _ _ _ _ _ HR x). cbn. intuition congruence.
      - intros e He. rewrite map_app, in_app_iff. apply in_app_or in He. destruct He as [He|[<-|[]]].
        + destruct (ra_out _ _ _ _ _ HR e He) as [H|H]; [left; left; exact H|right]. apply Hother; [intros Hx; apply Hno; rewrite <- Hx; apply in_map; exact He|exact H].
        + left. right. left. reflexivity.
      - unfold mems', rounds'. rewrite !set_nth_len. apply (ra_len _ _ _ _ _ HR).
      - intros Hlim e He. rewrite map_app, in_app_iff. apply in_app_or in He. destruct He as [He|[<-|[]]].
        + left. apply (ra_lim _ _ _ _ _ HR Hlim e He).
        + right. left. reflexivity.
      - rewrite !map_app. cbn [map fst]. split.
        + apply (Permutation_NoDup (l := i :: map fst done)); [apply Permutation_cons_append|]. constructor; [exact Hnd|apply (ra_sub _ _ _ _ _ HR)].
        + intros x Hx. apply in_app_or in Hx. apply in_or_app. destruct Hx as [Hx|Hx]; [left; apply (ra_sub _ _ _ _ _ HR), Hx|right; exact Hx]. }
    assert (Hout : map fst (a_out a ++ [(i, s')]) = map fst (a_out a) ++ [i]) by (rewrite map_app; reflexivity).
    destruct (Nat.leb_spec lim j) as [Hj|Hj].
    - (* the limit is reached *)
      assert (j = lim) as -> by lia. destruct w as [w0|].
      + rewrite (Hlab w0 eq_refl). cbn [bind]. destruct Hcase as [(_ & _ & Hx & _)|(x & Hmv & -> & Hw)]; [discriminate|].
        eexists. eexists. split; [reflexivity|]. split; [|exact Hout].
        apply Hclose with (b := map (set_outcome 0) mem ++ scored w0 (mem ++ [mkFrag (g_player G s) (map tpow row) x])).
        * eapply b_both; [exact Hh|exact Hmv|symmetry; exact Hw].
        * rewrite app_assoc. reflexivity.
        * intros y. rewrite !in_app_iff. cbn. intuition.
      + cbn [bind]. eexists. eexists. split; [reflexivity|]. split; [|exact Hout].
        apply Hclose with (b := map (set_outcome 0) mem).
        * eapply b_stopped with (s' := s'); [exact Hh|]. destruct Hcase as [(Hsk & _)|(x & Hmv & _ & Hw)]; [left; exact Hsk|right]. exists (map tpow row), x. auto.
        * reflexivity.
        * intros y. rewrite !in_app_iff. cbn. intuition.
    - destruct w as [w0|].
      + rewrite (Hlab w0 eq_refl). cbn [bind]. destruct Hcase as [(_ & _ & Hx & _)|(x & Hmv & -> & Hw)]; [discriminate|].
        eexists. eexists. split; [reflexivity|]. split; [|exact Hout].
        apply Hclose with (b := scored w0 (mem ++ [mkFrag (g_player G s) (map tpow row) x])).
        * eapply b_decided; [exact Hh|exact Hj|exact Hmv|symmetry; exact Hw].
        * reflexivity.
        * intros y. rewrite !in_app_iff. cbn. intuition.
      + cbn [bind]. eexists. eexists. split; [reflexivity|]. split; [|exact Hout].
        apply Hstay; try reflexivity; [exact Hj|]. destruct Hcase as [(Hsk & -> & _ & Hw)|(x & Hmv & -> & Hw)].
        * eapply h_skip; [exact Hh|exact Hsk|congruence].
        * eapply h_move; [exact Hh|exact Hmv|symmetry; exact Hw].
  Qed.

  Definition row_ok (rows : list (list f32)) (st : store G) p s : Prop :=
    exists n vm row, nth_error st p = Some n /\ n_state n = s /\ g_valid G s = Ok vm /\ nth_error rows p = Some row /\ (n_children n = [] <-> vm = [])
       /\ length row = asize G /\ (vm <> [] -> Forall unit32 row /\ visit_row st n vm row).

  Lemma steps_ok rows (st : store G) j base : (j <= lim)%nat -> forall l p a done, NoDup (map fst (a_out a) ++ map fst l) ->
    racc_ok j l a done base -> (forall q e, nth_error l q = Some e -> row_ok rows st (p + q)%nat (snd e)) ->
    exists a' done', mfold (sp_step tsum unif cfg (map (map tpow) rows) st) (combine (seq p (length l)) l) a = Ok a'
      /\ racc_ok j [] a' done' base /\ map fst (a_out a') = map fst (a_out a) ++ map fst l.
  Proof.
    intros Hjl. induction l as [|[i s] l IH]; intros p a done HN HR Hrow.
    - exists a, done. cbn. rewrite app_nil_r. auto.
    - cbn [length seq combine mfold].
      destruct (step_ok rows st j p i s l a done base Hjl HN HR) as (a1 & d1 & E1 & HR1 & Eo).
      { specialize (Hrow 0%nat (i, s) eq_refl). rewrite Nat.add_0_r in Hrow. exact Hrow. }
      rewrite E1. cbn [bind]. cbn [map fst] in HN. destruct (IH (S p) a1 d1) as (a2 & d2 & E2 & HR2 & Eo2).
      + rewrite Eo, <- app_assoc. exact HN.
      + exact HR1.
      + intros q e Hq. specialize (Hrow (S q) e Hq). rewrite Nat.add_succ_r in Hrow. exact Hrow.
      + exists a2, d2. split; [exact E2|]. split; [exact HR2|]. rewrite Eo2, Eo, <- app_assoc. reflexivity.
  Qed.

  (** ** the loop *)
  Record sps_ok (j : nat) (a : sps) (done : list (nat * list frag)) : Prop := {
    so_alive : forall e, In e (sp_states a) -> alive (sp_mems a) (sp_rounds a) j e;
    so_all : sp_all a = concat (map snd done);
    so_done : Forall closed done;
    so_perm : Permutation (map fst (sp_states a) ++ map fst done) (seq 0 (length starts));
    so_len : length (sp_mems a) = length starts /\ length (sp_rounds a) = length starts;
    so_lim : (lim < j)%nat -> sp_states a = []
  }.
  Hypothesis HB : 1 + Z.of_nat (iterations cfg) * Z.of_nat (S (length starts)) <= 2 ^ 24.

  Lemma round_ok j a done : sps_ok j a done -> sp_states a <> [] ->
    exists a' done', sp_round tsum dirichlet unif tpow nt cfg hash order j a = Ok a' /\ sps_ok (S j) a' (done ++ done').
  Proof.
    intros HO Hne. assert (Hjl : (j <= lim)%nat) by (destruct (Nat.le_gt_cases j lim) as [H|H]; [exact H|destruct (Hne (so_lim _ _ _ HO H))]).
    unfold sp_round. set (l := hash j (sp_states a)). assert (HPl : Permutation l (sp_states a)) by apply HHash.
    assert (HNs : NoDup (map fst (sp_states a) ++ map fst done)) by (eapply Permutation_NoDup; [symmetry; apply (so_perm _ _ _ HO)|apply seq_NoDup]).
    assert (HPf : Permutation (map fst l) (map fst (sp_states a))) by (apply Permutation_map; exact HPl).
    assert (HNl : NoDup (map fst l ++ map fst done)).
    { eapply Permutation_NoDup; [|exact HNs]. apply Permutation_app_tail. symmetry. exact HPf. }
    assert (Hal : forall e, In e l -> alive (sp_mems a) (sp_rounds a) j e).
    { intros e He. apply (so_alive _ _ _ HO). eapply Permutation_in; [exact HPl|exact He]. }
    assert (HI : forall s, In s (map snd l) -> I s).
    { intros s Hs. apply in_map_iff in Hs. destruct Hs as (e & <- & He). destruct (Hal e He) as (s0 & mem & E0 & _ & _ & Hh).
      apply (moved_player s0 mem j (snd e)); [apply HStarts; eapply nth_error_In; exact E0|exact Hh]. }
    assert (HLl : (length l <= length starts)%nat).
    { pose proof (Permutation_length (so_perm _ _ _ HO)) as HL. rewrite app_length, !map_length, seq_length in HL. rewrite (Permutation_length HPl). lia. }
    destruct (parallel_ok G I HA tsum dirichlet nt cfg (map snd l) (order j (length l)) (sp_rng a)) as (st & r1 & E1).
    { intros H. apply map_eq_nil in H. apply Hne. apply Permutation_nil. rewrite <- H. exact HPl. }
    { exact HI. } { exact HNet. } { exact HAl. } { exact HDir. } { rewrite map_length. apply HOrder. }
    rewrite E1. cbn [bind].
    destruct (parallel_rows G I HA tsum HS dirichlet nt cfg (map snd l) (order j (length l)) (sp_rng a) st r1) as (HLst & _ & rows & Erows & HLr & Hrows).
    { exact HI. } { rewrite map_length. apply HOrder. } { rewrite map_length. nia. } { exact E1. }
    rewrite map_length in *. rewrite (mmap_get G st (length l) HLst). cbn [bind]. rewrite Erows. cbn [bind].
    destruct (steps_ok rows st j (sp_all a) Hjl l 0%nat (mkAcc [] (sp_mems a) (sp_all a) (sp_rounds a) [] r1) []) as (b & done' & Eb & HR & Eo).
    - cbn [a_out map app]. eapply NoDup_app_remove_r'. exact HNl.
    - constructor; cbn [a_out a_mems a_all a_rounds a_rem a_rng map concat].
      + exact Hal.
      + rewrite app_nil_r. reflexivity.
      + constructor.
      + intros i. reflexivity.
      + intros e [].
      + apply (so_len _ _ _ HO).
      + intros _ e [].
      + split; [constructor|intros i []].
    - intros q e Hq. cbn [Nat.add]. destruct (Hrows q (snd e)) as (n & vm & row & A1 & A2 & A3 & A4 & A5 & A6 & A7 & _).
      { rewrite nth_error_map, Hq. reflexivity. }
      exists n, vm, row. repeat (split; [assumption|]). intros Hv. apply A7; assumption.
    - rewrite Eb. cbn [bind]. cbn [a_out map app] in Eo. eexists. exists done'. split; [reflexivity|].
      set (keep := fun e : nat * St G => negb (existsb (Nat.eqb (fst e)) (a_rem b))).
      assert (Hkeep : forall e, keep e = true <-> ~ In (fst e) (map fst done')).
      { intros e. unfold keep. rewrite negb_true_iff, <- not_true_iff_false, existsb_exists, <- (ra_rem _ _ _ _ _ HR).
        split; [intros H Hin; apply H; exists (fst e); split; [exact Hin|apply Nat.eqb_refl]|intros H (x & Hx & Ex); apply Nat.eqb_eq in Ex; subst x; auto]. }
      constructor; cbn [sp_states sp_mems sp_all sp_rounds sp_rng].
      + intros e He. apply filter_In in He. destruct He as [He Hk]. apply Hkeep in Hk. destruct (ra_out _ _ _ _ _ HR e He) as [H|H]; [contradiction|exact H].
      + rewrite (ra_all _ _ _ _ _ HR), (so_all _ _ _ HO), map_app, concat_app. reflexivity.
      + apply Forall_app. split; [apply (so_done _ _ _ HO)|apply (ra_done _ _ _ _ _ HR)].
      + rewrite map_app. rewrite <- (so_perm _ _ _ HO). rewrite (Permutation_app_comm (map fst done)), app_assoc. apply Permutation_app_tail.
        rewrite <- HPf, <- Eo. apply NoDup_app_remove_r' in HNl. rewrite <- Eo in HNl.
        pose proof (ra_sub _ _ _ _ _ HR) as [HNd Hsub]. clear -HNl HNd Hsub Hkeep.
        assert (Hin : forall x, In x (map fst (filter keep (a_out b))) <-> In x (map fst (a_out b)) /\ ~ In x (map fst done')).
        { intros x. rewrite !in_map_iff. split.
          - intros (e & <- & He). apply filter_In in He. destruct He as [He Hk]. split; [eauto|]. rewrite <- in_map_iff. apply Hkeep. exact Hk.
          - intros [(e & <- & He) Hn]. exists e. split; [reflexivity|]. apply filter_In. split; [exact He|]. apply Hkeep. rewrite in_map_iff. exact Hn. }
        apply NoDup_Permutation.
        * apply nodup_app; [|exact HNd|intros x Hx Hd; apply Hin in Hx; tauto].
          clear -HNl. induction (a_out b) as [|e o IH]; [constructor|]. cbn [map] in HNl. inversion HNl as [|? ? Hx HN]; subst. cbn [filter].
          destruct (keep e); [|apply IH, HN]. cbn [map]. constructor; [|apply IH, HN]. intros Hc. apply Hx. apply in_map_iff in Hc. destruct Hc as (e' & E & He).
          apply filter_In in He. rewrite <- E. apply in_map, He.
        * exact HNl.
        * intros x. rewrite in_app_iff, Hin. split; [intros [[H _]|H]; [exact H|apply Hsub, H]|].
          intros H. destruct (in_dec Nat.eq_dec x (map fst done')); [right|left]; auto.
      + apply (ra_len _ _ _ _ _ HR).
      + intros Hlt. assert (j = lim) as Ej by lia. destruct (filter keep (a_out b)) as [|e o] eqn:Ef; [reflexivity|]. exfalso.
        assert (He : In e (filter keep (a_out b))) by (rewrite Ef; left; reflexivity). apply filter_In in He. destruct He as [He Hk].
        apply Hkeep in Hk. apply Hk. apply (ra_lim _ _ _ _ _ HR); [lia|exact He].
  Qed.

  Lemma loop_ok : forall fuel j a done, (lim < fuel + j)%nat -> sps_ok j a done ->
    exists out r done', sp_loop tsum dirichlet unif tpow nt cfg hash order fuel j a = Ok (out, r)
      /\ out = concat (map snd done') /\ Forall closed done' /\ Permutation (map fst done') (seq 0 (length starts)).
  Proof.
    assert (Hbase : forall fuel j a done, sps_ok j a done -> sp_states a = [] ->
      exists out r done', sp_loop tsum dirichlet unif tpow nt cfg hash order fuel j a = Ok (out, r)
        /\ out = concat (map snd done') /\ Forall closed done' /\ Permutation (map fst done') (seq 0 (length starts))).
    { intros fuel j a done HO E. exists (sp_all a), (sp_rng a), done. destruct fuel; cbn [sp_loop]; rewrite E.
      all: split; [reflexivity|]; split; [apply (so_all _ _ _ HO)|]; split; [apply (so_done _ _ _ HO)|].
      all: pose proof (so_perm _ _ _ HO) as HP; rewrite E in HP; exact HP. }
    induction fuel as [|fuel IH]; intros j a done Hf HO.
    - apply (Hbase 0%nat j a done HO). apply (so_lim _ _ _ HO). lia.
    - destruct (sp_states a) as [|e l] eqn:E; [apply (Hbase (S fuel) j a done HO E)|].
      cbn [sp_loop]. rewrite E. destruct (round_ok j a done HO) as (a' & d' & Er & HO'); [rewrite E; discriminate|].
      rewrite Er. cbn [bind]. apply (IH (S j) a' _ ltac:(lia) HO').
  Qed.
End S.
