(** * NetApi: the variables of the network, loading and saving, shapes (C52, C57). *)
From Coq Require Import Permutation Ascii DecimalString DecimalNat.
From Verif Require Import Base BaseFacts F32 RoundFacts Tensor TensorFacts TttModel BgModel GameModel McModel AlphaModel SelfModel TrainModel TrainSpec TrainProof TrainApi FilesModel FilesApi NetModel.
Local Open Scope string_scope.

(** a name without two underscores in a row *)
Definition plain (name : string) : Prop := ~ exists a b, name = a ++ "__" ++ b.

(** ** names *)
Fixpoint tail_after (s : string) : option string :=
  match s with
  | EmptyString => None
  | String c s' => match tail_after s' with Some t => Some t | None => if Ascii.eqb c "_"%char then Some s' else None end
  end.
Fixpoint no_us (s : string) : bool := match s with EmptyString => true | String c s' => negb (Ascii.eqb c "_"%char) && no_us s' end.
Lemma tail_none d : no_us d = true -> tail_after d = None.
Proof. induction d as [|c d IH]; [reflexivity|]. cbn. intros H. apply andb_true_iff in H. destruct H as [H1 H2]. rewrite (IH H2). apply negb_true_iff in H1. rewrite H1. reflexivity. Qed.
Lemma tail_us a d : no_us d = true -> tail_after (a ++ String "_"%char d) = Some d.
Proof. intros H. induction a as [|c a IH]; cbn; [rewrite (tail_none _ H); reflexivity|]. rewrite IH. reflexivity. Qed.
Lemma append_assoc (a b c : string) : (a ++ b) ++ c = a ++ b ++ c.
Proof. induction a as [|x a IH]; [reflexivity|]. cbn. rewrite IH. reflexivity. Qed.
Lemma suffix_inj a b d1 d2 : no_us d1 = true -> no_us d2 = true -> a ++ "__" ++ d1 = b ++ "__" ++ d2 -> d1 = d2.
Proof.
  intros H1 H2 E. apply (f_equal tail_after) in E. change ("__" ++ d1) with ("_" ++ String "_"%char d1) in E. change ("__" ++ d2) with ("_" ++ String "_"%char d2) in E.
  rewrite <- !append_assoc, !tail_us in E by assumption. congruence.
Qed.
Lemma show_no_us n : no_us (show_nat n) = true.
Proof. unfold show_nat. induction (Nat.to_uint n); cbn; try reflexivity; exact IHu. Qed.
Lemma show_inj a b : show_nat a = show_nat b -> a = b.
Proof. unfold show_nat. intros H. apply (f_equal NilEmpty.uint_of_string) in H. rewrite !NilEmpty.usu in H. injection H as H. apply Unsigned.to_uint_inj in H. exact H. Qed.

Lemma find_none st name : find_var st name = None <-> ~ In name (map fst st).
Proof.
  induction st as [|[n t] st IH]; cbn; [tauto|]. destruct (String.eqb_spec n name) as [->|Hne]; [split; [discriminate|intros H; exfalso; apply H; left; reflexivity]|]. rewrite IH. tauto.
Qed.
Lemma find_some st name t : NoDup (map fst st) -> In (name, t) st -> find_var st name = Some t.
Proof.
  intros Hn Hin. induction st as [|[n x] st IH]; [contradiction|]. cbn [find_var map fst] in *. inversion Hn as [|? ? Hx Hn']; subst. destruct (String.eqb_spec n name) as [->|Hne].
  - destruct Hin as [E|Hin]; [injection E as ->; reflexivity|]. exfalso. apply Hx. apply in_map_iff. exists (name, t). auto.
  - destruct Hin as [E|Hin]; [injection E as E1 E2; congruence|]. apply IH; assumption.
Qed.
Lemma set_fresh st name v : ~ In name (map fst st) -> set_var st name v = (st ++ [(name, v)])%list.
Proof.
  induction st as [|[n t] st IH]; intros H; [reflexivity|]. cbn [set_var map fst] in *. destruct (String.eqb_spec n name) as [->|Hne]; [exfalso; apply H; left; reflexivity|].
  rewrite IH by (intros H'; apply H; right; exact H'). reflexivity.
Qed.
Definition named_ok (st : store) : Prop :=
  NoDup (map fst st) /\ Forall (fun n => plain n \/ exists base k, (k < length st)%nat /\ n = base ++ "__" ++ show_nat k) (map fst st).
Definition name_for (st : store) (base : string) : string := match find_var st base with Some _ => base ++ "__" ++ show_nat (length st) | None => base end.
Lemma NoDup_snoc (A : Type) (l : list A) x : NoDup l -> ~ In x l -> NoDup (l ++ [x]).
Proof.
  intros Hl Hx. induction Hl as [|y l Hy Hl IH]; [repeat constructor; intros []|]. cbn. constructor.
  - intros H. apply in_app_or in H. destruct H as [H|[->|[]]]; [contradiction|]. apply Hx. left. reflexivity.
  - apply IH. intros H. apply Hx. right. exact H.
Qed.
Lemma add_var_ok st base v : named_ok st -> plain base -> add_var st base v = (st ++ [(name_for st base, v)])%list /\ named_ok (add_var st base v).
Proof.
  intros [Hn HF] Hb.
  assert (Hfresh : ~ In (name_for st base) (map fst st)).
  { unfold name_for. destruct (find_var st base) as [t|] eqn:E; [|apply find_none, E]. intros Hin. rewrite Forall_forall in HF. destruct (HF _ Hin) as [Hp|(b' & k & Hk & E')].
    - apply Hp. exists base, (show_nat (length st)). reflexivity.
    - apply suffix_inj in E'; try apply show_no_us. apply show_inj in E'. lia. }
  assert (E : add_var st base v = (st ++ [(name_for st base, v)])%list) by (unfold add_var; apply (set_fresh st (name_for st base) v Hfresh)).
  split; [exact E|]. rewrite E. split.
  - rewrite map_app. cbn [map fst]. apply NoDup_snoc; assumption.
  - rewrite map_app, app_length. cbn [map fst length]. apply Forall_app. split.
    + eapply Forall_impl; [|exact HF]. intros n [Hp|(b' & k & Hk & ->)]; [left; exact Hp|right; exists b', k; split; [lia|reflexivity]].
    + constructor; [|constructor]. unfold name_for. destruct (find_var st base); [right; exists base, (length st); split; [lia|reflexivity]|left; exact Hb].
Qed.
Lemma add_all_ok : forall reqs st, named_ok st -> Forall (fun rq : string * tensor f32 => plain (fst rq)) reqs ->
  exists names, add_all st reqs = (st ++ combine names (map snd reqs))%list /\ length names = length reqs /\ named_ok (add_all st reqs)
    /\ forall reqs', map fst reqs' = map fst reqs -> forall st', map fst st' = map fst st -> add_all st' reqs' = (st' ++ combine names (map snd reqs'))%list.
Proof.
  induction reqs as [|[base v] reqs IH]; intros st Hst HF.
  - exists []. cbn. rewrite app_nil_r. repeat split; try apply Hst. intros reqs' H st' _. destruct reqs'; [|discriminate H]. cbn. rewrite app_nil_r. reflexivity.
  - inversion HF as [|? ? Hb HF']; subst. cbn [fst] in Hb. destruct (add_var_ok st base v Hst Hb) as [E Hst']. destruct (IH _ Hst' HF') as (names & E1 & E2 & E3 & E4).
    exists (name_for st base :: names). cbn [add_all fold_left fst snd map combine length] in *. unfold add_all in *. repeat split; try apply E3.
    + rewrite E1, E, <- app_assoc. reflexivity.
    + lia.
    + intros reqs' Hr st2 Hs. destruct reqs' as [|[base' v'] reqs']; [discriminate Hr|]. cbn [map fst] in Hr. injection Hr as -> Hr. cbn [fold_left fst snd map combine].
      assert (Hok2 : named_ok st2) by (unfold named_ok; rewrite Hs; replace (length st2) with (length st) by (rewrite <- (map_length fst st), <- Hs, map_length; reflexivity); exact Hst).
      assert (Hname : name_for st2 base = name_for st base).
      { unfold name_for. replace (length st2) with (length st) by (rewrite <- (map_length fst st), <- Hs, map_length; reflexivity).
        destruct (find_var st2 base) eqn:F2, (find_var st base) eqn:F1; try reflexivity.
        - apply find_none in F1. rewrite <- Hs in F1. apply find_none in F1. congruence.
        - apply find_none in F2. rewrite Hs in F2. apply find_none in F2. congruence. }
      destruct (add_var_ok st2 base v' Hok2 Hb) as [E' _].
      rewrite (E4 reqs' Hr (add_var st2 base v')).
      * rewrite E', Hname, <- app_assoc. reflexivity.
      * rewrite E', E, !map_app, Hs, Hname. reflexivity.
Qed.

(** ** C52 *)
Theorem C52_names_lemma : forall reqs, Forall (fun rq : string * tensor f32 => plain (fst rq)) reqs ->
  NoDup (map fst (add_all [] reqs)) /\ map snd (add_all [] reqs) = map snd reqs.
Proof.
  intros reqs HF. destruct (add_all_ok reqs [] ltac:(split; constructor) HF) as (names & E & HL & [Hn _] & _). split; [exact Hn|]. rewrite E. cbn [app].
  assert (Hlen : length names = length (map snd reqs)) by (rewrite map_length; exact HL). revert Hlen. clear. generalize (map snd reqs). intros l. revert l. induction names as [|n names IH]; intros [|x l] H; try discriminate H; [reflexivity|]. cbn. rewrite IH; [reflexivity|]. cbn in H. lia.
Qed.
Theorem C52_new_lemma : forall broadcast reqs f, alphazero_new broadcast reqs (Some (Some f)) None = Ok (add_all [] reqs)
  /\ (forall best, alphazero_new broadcast reqs (Some (Some f)) best = Ok (add_all [] reqs))
  /\ alphazero_new broadcast reqs None (Some (Some f)) = Ok (add_all [] reqs).
Proof. intros. repeat split. Qed.

Lemma load_exact broadcast file st : NoDup (map fst file) -> Forall (fun nt : string * tensor f32 => exists src, In (fst nt, src) file /\ shape src = shape (snd nt)) st ->
  exists st', load_vars broadcast file st = Some st' /\ map fst st' = map fst st /\ Forall (fun nt => In nt file) st'.
Proof.
  intros Hn HF. induction HF as [|[n t] st (src & Hin & Hsh) HF IH]; [exists []; repeat split; constructor|]. cbn [fst snd] in *. destruct IH as (st' & E1 & E2 & E3).
  cbn [load_vars]. rewrite (find_some file n src Hn Hin). unfold copy_, same_shape. rewrite Hsh, shape_eqb_refl, E1. exists ((n, mkT (shape t) (data src)) :: st'). split; [reflexivity|]. cbn [map fst]. split; [rewrite E2; reflexivity|].
  constructor; [|exact E3]. rewrite <- Hsh. destruct src. exact Hin.
Qed.
Lemma same_store (file st st' : store) : NoDup (map fst file) -> map fst st' = map fst st -> Forall (fun nt => In nt file) st' -> Forall (fun nt => In nt file) st -> st' = st.
Proof.
  intros Hn. revert st'. induction st as [|[n t] st IH]; intros [|[n' t'] st'] H H1 H2; try discriminate H; [reflexivity|]. cbn in H. injection H as -> H.
  inversion H1 as [|? ? A1 H1']; subst. inversion H2 as [|? ? A2 H2']; subst. f_equal; [|apply IH; assumption]. pose proof (find_some _ _ _ Hn A1). pose proof (find_some _ _ _ Hn A2). congruence.
Qed.
(** a file written by [save] from a network of the same layers, after any training *)
Theorem C52_round_trip_lemma : forall broadcast reqs reqs' (trained : store) file,
  Forall (fun rq : string * tensor f32 => plain (fst rq)) reqs -> map (fun rq : string * tensor f32 => (fst rq, shape (snd rq))) reqs' = map (fun rq : string * tensor f32 => (fst rq, shape (snd rq))) reqs ->
  map (fun nt : string * tensor f32 => (fst nt, shape (snd nt))) trained = map (fun nt : string * tensor f32 => (fst nt, shape (snd nt))) (add_all [] reqs) -> Permutation file trained ->
  from_path broadcast reqs' (Some file) = Ok trained /\ copy_model broadcast reqs' trained = Ok trained.
Proof.
  intros broadcast reqs reqs' trained file HF Hr Ht HP.
  destruct (add_all_ok reqs [] ltac:(split; constructor) HF) as (names & E & HL & [Hn _] & Hall). cbn [app] in *.
  assert (Hfst : map fst reqs' = map fst reqs) by (apply (f_equal (map (@fst string (list nat)))) in Hr; rewrite !map_map in Hr; exact Hr).
  pose proof (Hall reqs' Hfst [] eq_refl) as E'. cbn [app] in E'.
  assert (Hnames : map fst trained = map fst (add_all [] reqs)) by (apply (f_equal (map (@fst string (list nat)))) in Ht; rewrite !map_map in Ht; exact Ht).
  assert (Hshape : map (fun nt : string * tensor f32 => (fst nt, shape (snd nt))) (add_all [] reqs') = map (fun nt : string * tensor f32 => (fst nt, shape (snd nt))) trained).
  { rewrite Ht, E, E'. assert (Hs : map (fun t => shape t) (map snd reqs') = map (fun t => shape t) (map snd reqs)) by (apply (f_equal (map (@snd string (list nat)))) in Hr; rewrite !map_map in Hr; rewrite !map_map; exact Hr).
    revert Hs. generalize (map snd reqs') (map snd reqs). clear. induction names as [|n names IH]; intros [|x l] [|y l'] H; try discriminate H; try reflexivity. cbn [map combine fst snd] in *. injection H as H1 H2. rewrite H1, (IH _ _ H2). reflexivity. }
  assert (Hnt : NoDup (map fst trained)) by (rewrite Hnames; exact Hn).
  assert (Hload : forall f, Permutation f trained -> load_vars broadcast f (add_all [] reqs') = Some trained).
  { intros f Hf. assert (Hnf : NoDup (map fst f)) by (apply (Permutation_NoDup (l := map fst trained)); [apply Permutation_map; symmetry; exact Hf|exact Hnt]).
    destruct (load_exact broadcast f (add_all [] reqs') Hnf) as (st' & L1 & L2 & L3).
    - apply Forall_forall. intros [n t] Hin. apply (in_map (fun nt : string * tensor f32 => (fst nt, shape (snd nt)))) in Hin. rewrite Hshape in Hin. apply in_map_iff in Hin. destruct Hin as ([n2 t2] & E2 & Hin). cbn [fst snd] in *. injection E2 as -> E2.
      exists t2. split; [apply (Permutation_in _ (Permutation_sym Hf)), Hin|exact E2].
    - rewrite L1. f_equal. apply (same_store f); [exact Hnf| |exact L3|].
      + rewrite L2. apply (f_equal (map (@fst string (list nat)))) in Hshape. rewrite !map_map in Hshape. exact Hshape.
      + apply Forall_forall. intros nt Hin. apply (Permutation_in _ (Permutation_sym Hf)), Hin. }
  unfold from_path, copy_model, resnet_new. rewrite (Hload file HP), (Hload trained (Permutation_refl _)). split; reflexivity.
Qed.
Lemma shape_eqb_eq a b : shape_eqb a b = true -> a = b.
Proof.
  revert b. induction a as [|x a IH]; intros [|y b] H; try discriminate H; [reflexivity|]. cbn in H. apply andb_true_iff in H. destruct H as [H1 H2].
  apply Nat.eqb_eq in H1. rewrite H1, (IH _ H2). reflexivity.
Qed.
(** loading reads every variable of the network from the file, and fails if it cannot *)
Lemma load_spec broadcast file : forall st, NoDup (map fst st) ->
  (forall st', load_vars broadcast file st = Some st' -> map fst st' = map fst st
     /\ forall n v, In (n, v) st' -> exists t src, In (n, t) st /\ find_var file n = Some src /\ copy_ broadcast t src = Some v)
  /\ (load_vars broadcast file st = None <-> exists n t, In (n, t) st /\ forall src, find_var file n = Some src -> copy_ broadcast t src = None).
Proof.
  induction st as [|[n t] st IH]; intros Hn.
  - split; [intros st' E; injection E as <-; split; [reflexivity|intros n v []]|]. split; [discriminate|intros (n & t & [] & _)].
  - inversion Hn as [|? ? Hx Hn']; subst. destruct (IH Hn') as [IH1 IH2]. cbn [load_vars]. destruct (find_var file n) as [src|] eqn:Ef.
    + destruct (copy_ broadcast t src) as [t'|] eqn:Ec.
      * destruct (load_vars broadcast file st) as [st1|] eqn:El.
        -- destruct (IH1 _ eq_refl) as [H1 H2]. split.
           ++ intros st' E. injection E as <-. cbn [map fst]. rewrite H1. split; [reflexivity|]. intros m v [E|Hin].
              ** injection E as <- <-. exists t, src. cbn. auto.
              ** destruct (H2 _ _ Hin) as (t2 & s2 & A & B & C). exists t2, s2. cbn. auto.
           ++ split; [discriminate|]. intros (m & t2 & [E|Hin] & Hc); [injection E as <- <-; rewrite (Hc _ Ef) in Ec; discriminate Ec|]. enough (Some st1 = None) by discriminate. apply IH2. eauto.
        -- split; [discriminate|]. split; [intros _|reflexivity]. destruct (proj1 IH2 eq_refl) as (m & t2 & Hin & Hc). exists m, t2. cbn. auto.
      * split; [discriminate|]. split; [intros _|reflexivity]. exists n, t. split; [left; reflexivity|]. intros s2 E2. rewrite Ef in E2. injection E2 as <-. exact Ec.
    + split; [discriminate|]. split; [intros _|reflexivity]. exists n, t. split; [left; reflexivity|]. intros s2 E2. rewrite Ef in E2. discriminate.
Qed.
Theorem C52_load_lemma : forall broadcast reqs file, Forall (fun rq : string * tensor f32 => plain (fst rq)) reqs ->
  (forall st, from_path broadcast reqs (Some file) = Ok st -> map fst st = map fst (add_all [] reqs)
     /\ forall n v, In (n, v) st -> exists t src, In (n, t) (add_all [] reqs) /\ find_var file n = Some src
          /\ (shape src = shape t -> v = src) /\ (shape src <> shape t -> broadcast t src = Some v))
  /\ (forall n t, In (n, t) (add_all [] reqs) -> find_var file n = None -> from_path broadcast reqs (Some file) = Panic PExplicit)
  /\ ((forall n t, In (n, t) (add_all [] reqs) -> exists src, find_var file n = Some src /\ shape src = shape t) -> exists st, from_path broadcast reqs (Some file) = Ok st)
  /\ from_path broadcast reqs None = Panic PExplicit.
Proof.
  intros broadcast reqs file HF. destruct (C52_names_lemma reqs HF) as [Hn _]. destruct (load_spec broadcast file (add_all [] reqs) Hn) as [H1 H2]. unfold from_path, resnet_new.
  split; [|split; [|split; [|reflexivity]]].
  - intros st E. destruct (load_vars broadcast file (add_all [] reqs)) as [st1|]; [|discriminate]. injection E as <-. destruct (H1 _ eq_refl) as [A B]. split; [exact A|].
    intros n v Hin. destruct (B n v Hin) as (t & src & C1 & C2 & C3). exists t, src. split; [exact C1|]. split; [exact C2|]. unfold copy_, same_shape in C3. split; intros Hs.
    + rewrite Hs, shape_eqb_refl in C3. injection C3 as <-. rewrite <- Hs. destruct src. reflexivity.
    + destruct (shape_eqb (shape t) (shape src)) eqn:Es; [|exact C3]. exfalso. apply Hs. symmetry. apply shape_eqb_eq, Es.
  - intros n t Hin Ef. rewrite (proj2 H2); [reflexivity|]. exists n, t. split; [exact Hin|]. intros src E. rewrite Ef in E. discriminate.
  - intros H. destruct (load_vars broadcast file (add_all [] reqs)) as [st1|] eqn:El; [exists st1; reflexivity|]. destruct (proj1 H2 eq_refl) as (n & t & Hin & Hc).
    destruct (H n t Hin) as (src & Ef & Es). specialize (Hc src Ef). unfold copy_, same_shape in Hc. rewrite Es, shape_eqb_refl in Hc. discriminate.
Qed.
(** restarting from the file of a trained network gives the saved weights only if the fresh
    initial values happen to equal them *)
Theorem C52_restart_lemma : forall broadcast reqs (trained : store) file st, Forall (fun rq : string * tensor f32 => plain (fst rq)) reqs ->
  alphazero_new broadcast reqs (Some (Some file)) None = Ok st -> (st = trained <-> trained = add_all [] reqs) /\ map snd st = map snd reqs.
Proof.
  intros broadcast reqs trained file st HF E. destruct (C52_new_lemma broadcast reqs file) as [E' _]. rewrite E in E'. injection E' as ->. split; [split; congruence|]. apply (C52_names_lemma reqs HF).
Qed.
(** the optimiser is built before the variables exist, but its first step adds them all *)
Theorem C52_optimiser_lemma : forall trainable, let opt := opt_step trainable (opt_build []) in
  NoDup opt /\ (forall i, In i opt <-> nth_error trainable i = Some true) /\ opt_step trainable opt = opt
  /\ (forall known later, trainable = (known ++ later)%list -> opt_step trainable (opt_build known) = opt).
Proof.
  intros trainable opt. assert (E : opt = trainable_of trainable) by reflexivity. rewrite E. split; [apply NoDup_filter, seq_NoDup|]. split; [|split].
  - intros i. unfold trainable_of. rewrite filter_In, in_seq. split.
    + intros [Hi Ht]. rewrite (nth_err _ false) by lia. rewrite Ht. reflexivity.
    + intros H. assert (Hi : (i < length trainable)%nat) by (apply nth_error_Some; congruence). split; [lia|]. apply nth_error_nth. exact H.
  - unfold opt_step. rewrite skipn_all, app_nil_r. reflexivity.
  - intros known later ->. unfold opt_step, opt_build.
    assert (H : exists l, trainable_of (known ++ later) = (trainable_of known ++ l)%list).
    { unfold trainable_of at 1. rewrite app_length, seq_app, filter_app. eexists. f_equal. apply filter_ext_in. intros i Hi. apply in_seq in Hi. apply app_nth1. lia. }
    destruct H as [l ->]. rewrite skipn_app, skipn_all, Nat.sub_diag. reflexivity.
Qed.

(** ** the networks of the two games *)
Lemma net_plain c : Forall (fun v : string * list nat * bool => plain (fst (fst v))) (net_vars c).
Proof.
  assert (H : forall v, In v (net_vars c) -> In (fst (fst v)) ["bias"; "weight"; "running_mean"; "running_var"]).
  { intros v Hv. unfold net_vars in Hv. apply in_flat_map in Hv. destruct Hv as (l & _ & Hv). destruct l; cbn in Hv; repeat (destruct Hv as [<-|Hv]); try contradiction; cbn; tauto. }
  apply Forall_forall. intros v Hv. specialize (H v Hv). intros E. apply contains_spec in E. destruct H as [H|[H|[H|[H|[]]]]]; rewrite <- H in E; discriminate E.
Qed.

(** ** C57 *)
Lemma res_shapes f n b h w : (1 <= h)%nat -> (1 <= w)%nat -> layers_shape (repeat (Res f) n) [b; f; h; w] = Ok [b; f; h; w].
Proof.
  intros Hh Hw. unfold layers_shape. induction n as [|n IH]; [reflexivity|]. cbn [repeat mfold layer_shape conv_shape]. rewrite Nat.eqb_refl. cbn [bind norm_shape]. rewrite Nat.eqb_refl. cbn [bind conv_shape]. rewrite Nat.eqb_refl. cbn [bind norm_shape]. rewrite Nat.eqb_refl. cbn [bind].
  replace (h + 2 - 3 + 1)%nat with h by lia. replace (w + 2 - 3 + 1)%nat with w by lia. replace (h + 2 - 3 + 1)%nat with h by lia. replace (w + 2 - 3 + 1)%nat with w by lia. rewrite shape_eqb_refl. cbn [bind]. exact IH.
Qed.
Lemma mfold_app (A B : Type) (f : A -> B -> res A) l1 l2 a : mfold f (l1 ++ l2) a = (a' <- mfold f l1 a ;; mfold f l2 a').
Proof. revert a. induction l1 as [|x l1 IH]; intros a; [reflexivity|]. cbn. destruct (f a x); [apply IH|reflexivity]. Qed.
Lemma body_shape c b h w : (1 <= h)%nat -> (1 <= w)%nat -> layers_shape (init_block c ++ res_layer c) [b; c_input c; h; w] = Ok [b; c_filters c; h; w].
Proof.
  intros Hh Hw. unfold layers_shape. rewrite mfold_app. unfold init_block at 1. cbn [mfold layer_shape conv_shape]. rewrite Nat.eqb_refl. cbn [bind norm_shape]. rewrite Nat.eqb_refl. cbn [bind].
  replace (h + 2 - 3 + 1)%nat with h by lia. replace (w + 2 - 3 + 1)%nat with w by lia. apply (res_shapes (c_filters c) (c_blocks c) b h w Hh Hw).
Qed.
Lemma head_shape f o k n b h w : (1 <= h)%nat -> (1 <= w)%nat -> (h * w = k)%nat -> layers_shape [Conv f o; BNorm o; Relu; Flatten; Linear (o * k) n] [b; f; h; w] = Ok [b; n].
Proof.
  intros Hh Hw Hk. unfold layers_shape. cbn [mfold layer_shape conv_shape]. rewrite Nat.eqb_refl. cbn [bind norm_shape]. rewrite Nat.eqb_refl. cbn [bind].
  replace (h + 2 - 3 + 1)%nat with h by lia. replace (w + 2 - 3 + 1)%nat with w by lia.
  replace (numel [o; h; w]) with (o * k)%nat by (cbn [numel fold_right]; subst k; lia). rewrite Nat.eqb_refl. reflexivity.
Qed.
Lemma apply_shapes tr b ls sh : apply_t (list nat) shape_ev tr b ls sh = layers_shape ls sh.
Proof.
  unfold apply_t, layers_shape, shape_ev. generalize 0%nat. revert sh. induction ls as [|l ls IH]; intros sh k; [reflexivity|]. cbn [length seq combine mfold fst snd].
  destruct (layer_shape l sh); cbn [bind]; [apply IH|reflexivity].
Qed.
(** any game whose positions have [c_input] channels and [c_conv] points *)
Theorem C57_forward_lemma : forall c b h w, (1 <= h)%nat -> (1 <= w)%nat -> (h * w = c_conv c)%nat ->
  forward_t_shape c [b; c_input c; h; w] = Ok ([b; c_actions c], [b; 1%nat])
  /\ forward_train_shape c [b; c_input c; h; w] = Ok ([b; c_actions c], [b; 1%nat])
  /\ forward_policy_shape c [b; c_input c; h; w] = Ok [b; c_actions c].
Proof.
  intros c b h w Hh Hw Hk. unfold forward_t_shape, forward_train_shape, forward_policy_shape, forward_t, forward_train, forward_policy. rewrite !apply_shapes.
  pose proof (body_shape c b h w Hh Hw) as HB. unfold layers_shape in HB at 1. rewrite mfold_app in HB. apply bind_ok in HB. destruct HB as (sh1 & HB1 & HB2).
  change (layers_shape (init_block c) [b; c_input c; h; w] = Ok sh1) in HB1. change (layers_shape (res_layer c) sh1 = Ok [b; c_filters c; h; w]) in HB2.
  assert (HP : layers_shape (policy_head c) [b; c_filters c; h; w] = Ok [b; c_actions c]) by (apply head_shape; assumption).
  assert (HV : layers_shape (value_head c) [b; c_filters c; h; w] = Ok [b; 1%nat]).
  { unfold value_head. change [Conv (c_filters c) 3; BNorm 3; Relu; Flatten; Linear (3 * c_conv c) 1; Tanh] with ([Conv (c_filters c) 3; BNorm 3; Relu; Flatten; Linear (3 * c_conv c) 1] ++ [Tanh])%list.
    unfold layers_shape. rewrite mfold_app. pose proof (head_shape (c_filters c) 3 (c_conv c) 1 b h w Hh Hw Hk) as H. unfold layers_shape in H. rewrite H. reflexivity. }
  rewrite HB1. cbn [bind]. rewrite !apply_shapes, HB2. cbn [bind]. rewrite !apply_shapes, HP, HV. repeat split.
Qed.
(** the positions of both games fit, and so do the batches of training data: the losses compare
    tensors of equal shapes *)
Theorem C57_games_lemma : forall pr,
  (forall s x, g_tensor (bg_game pr) s = Ok x -> forward_t_shape bg_consts (shape x) = Ok ([1; asize (bg_game pr)]%nat, [1; 1]%nat))
  /\ (forall s x, g_tensor (ttt_game pr) s = Ok x -> forward_t_shape ttt_consts (shape x) = Ok ([1; asize (ttt_game pr)]%nat, [1; 1]%nat)).
Proof.
  intros pr. split; intros s x E.
  - destruct (bg_tensor_full s x E) as [-> _]. apply (C57_forward_lemma bg_consts 1 4 6); [lia|lia|reflexivity].
  - destruct (ttt_tensor_full s x E) as [-> _]. apply (C57_forward_lemma ttt_consts 1 3 3); [lia|lia|reflexivity].
Qed.
Theorem C57_batches_lemma : forall c h w sample, (1 <= h)%nat -> (1 <= w)%nat -> (h * w = c_conv c)%nat -> c_input c <> 1%nat -> sample <> [] ->
  uniform (c_actions c) [1; c_input c; h; w]%nat sample \/ uniform (c_actions c) [c_input c; h; w] sample ->
  exists x p o, batch_tensors sample = Ok (x, p, o) /\ forward_train_shape c (shape x) = Ok (shape p, shape o).
Proof.
  intros c h w sample Hh Hw Hk Hc Hne [HU|HU].
  - rewrite (C48_tensors_lemma _ _ _ Hne HU ltac:(discriminate)). do 3 eexists. split; [reflexivity|]. cbn [hd tl Nat.eqb shape]. apply (C57_forward_lemma c _ h w Hh Hw Hk).
  - rewrite (C48_tensors_lemma _ _ _ Hne HU ltac:(discriminate)). do 3 eexists. split; [reflexivity|]. cbn [hd tl shape]. replace (c_input c =? 1)%nat with false by (symmetry; apply Nat.eqb_neq, Hc). apply (C57_forward_lemma c _ h w Hh Hw Hk).
Qed.

(** ** C65: the three forward passes agree *)
Theorem C65_policy_lemma : forall T ev softmax1 c (x : T) train p v, forward_t T ev softmax1 c x train = Ok (p, v) -> forward_policy T ev softmax1 c x train = Ok p.
Proof.
  intros T ev softmax1 c x train p v. unfold forward_t, forward_policy. intros E. apply bind_ok in E. destruct E as (x1 & -> & E). cbn [bind].
  apply bind_ok in E. destruct E as (x2 & -> & E). cbn [bind]. apply bind_ok in E. destruct E as (q & -> & E). cbn [bind]. apply bind_ok in E. destruct E as (p' & -> & E).
  apply bind_ok in E. destruct E as (v' & _ & E). injection E as <- <-. reflexivity.
Qed.
Theorem C65_train_lemma : forall T ev softmax1 c (x : T) train,
  (forall p v, forward_t T ev softmax1 c x train = Ok (p, v) <-> exists q, forward_train T ev c x train = Ok (q, v) /\ softmax1 q = Ok p).
Proof.
  intros T ev softmax1 c x train p v. unfold forward_t, forward_train. destruct (apply_t T ev train InPart (init_block c) x) as [x1|]; cbn [bind]; [|split; [discriminate|intros (q & E & _); discriminate]].
  destruct (apply_t T ev train ResPart (res_layer c) x1) as [x2|]; cbn [bind]; [|split; [discriminate|intros (q & E & _); discriminate]].
  destruct (apply_t T ev train PolicyPart (policy_head c) x2) as [q0|]; cbn [bind]; [|split; [discriminate|intros (q & E & _); discriminate]].
  destruct (apply_t T ev train ValuePart (value_head c) x2) as [v0|]; cbn [bind].
  - destruct (softmax1 q0) as [p0|] eqn:Es; cbn [bind]; split.
    + intros E. injection E as <- <-. exists q0. auto.
    + intros (q & E & Eq). injection E as <- <-. rewrite Es in Eq. injection Eq as <-. reflexivity.
    + discriminate.
    + intros (q & E & Eq). injection E as <- <-. congruence.
  - destruct (softmax1 q0); cbn [bind]; (split; [discriminate|intros (q & E & _); discriminate]).
Qed.
