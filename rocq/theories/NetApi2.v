(** * NetApi2: the architecture of the network and the names of its variables (C76). *)
From Coq Require Import Permutation Ascii String NArith.
From Verif Require Import Base BaseFacts F32 Tensor TensorFacts TttModel BgModel GameModel McModel AlphaModel SelfModel TrainModel TrainSpec TrainProof TrainApi FilesModel FilesApi NetModel NetSpec NetApi.
Local Open Scope string_scope.

Lemma chain_apply T (ev : bool -> part -> nat -> layer -> T -> res T) tr b ls : forall k x y,
  mfold (fun x il => ev tr b (fst il) (snd il) x) (combine (seq k (length ls)) ls) x = Ok y <-> chain (ev tr b) k ls x y.
Proof.
  induction ls as [|l ls IH]; intros k x y; cbn [length seq combine mfold fst snd].
  - split; [intros E; injection E as <-; constructor|intros H; inversion H; reflexivity].
  - split.
    + intros E. destruct (ev tr b k l x) as [x1|] eqn:El; [|discriminate E]. cbn [bind] in E. apply IH in E. econstructor; eassumption.
    + intros H. inversion H as [|? ? ? ? x1 ? H1 H2]; subst. rewrite H1. cbn [bind]. apply IH. exact H2.
Qed.
Theorem C76_layers_lemma : forall T ev softmax1 c (x : T) train p v,
  forward_t T ev softmax1 c x train = Ok (p, v) <->
  exists a b q, let f := c_filters c in
    chain (ev train InPart) 0 [Conv (c_input c) f; BNorm f; Relu] x a
    /\ chain (ev train ResPart) 0 (repeat (Res f) (c_blocks c)) a b
    /\ chain (ev train PolicyPart) 0 [Conv f 32; BNorm 32; Relu; Flatten; Linear (32 * c_conv c) (c_actions c)] b q /\ softmax1 q = Ok p
    /\ chain (ev train ValuePart) 0 [Conv f 3; BNorm 3; Relu; Flatten; Linear (3 * c_conv c) 1; Tanh] b v.
Proof.
  intros T ev softmax1 c x train p v. unfold forward_t, apply_t. split.
  - intros E. apply bind_ok in E. destruct E as (a & Ea & E). apply bind_ok in E. destruct E as (b & Eb & E). apply bind_ok in E. destruct E as (q & Eq & E).
    apply bind_ok in E. destruct E as (p' & Ep & E). apply bind_ok in E. destruct E as (v' & Ev & E). injection E as <- <-.
    exists a, b, q. cbv zeta. apply chain_apply in Ea. apply chain_apply in Eb. apply chain_apply in Eq. apply chain_apply in Ev. repeat split; assumption.
  - intros (a & b & q & H). cbv zeta in H. destruct H as (Ea & Eb & Eq & Ep & Ev). apply chain_apply in Ea. apply chain_apply in Eb. apply chain_apply in Eq. apply chain_apply in Ev.
    unfold init_block, res_layer, policy_head, value_head. rewrite Ea. cbn [bind]. rewrite Eb. cbn [bind]. rewrite Eq. cbn [bind]. rewrite Ep. cbn [bind]. rewrite Ev. reflexivity.
Qed.

Lemma flat_repeat (A B : Type) (f : A -> list B) a n : flat_map f (repeat a n) = copies n (f a).
Proof. induction n as [|n IH]; [reflexivity|]. cbn. rewrite IH. reflexivity. Qed.
Lemma map_copies (A B : Type) (f : A -> B) n l : map f (copies n l) = copies n (map f l).
Proof. induction n as [|n IH]; [reflexivity|]. cbn [copies]. rewrite map_app, IH. reflexivity. Qed.
Lemma Forall_copies (A : Type) (P : A -> Prop) n l : Forall P l -> Forall P (copies n l).
Proof. intros H. induction n as [|n IH]; [constructor|]. cbn. apply Forall_app. auto. Qed.
Lemma net_split c : net_vars c = (flat_map layer_vars (init_block c) ++ copies (c_blocks c) (layer_vars (Res (c_filters c))) ++ flat_map layer_vars (policy_head c) ++ flat_map layer_vars (value_head c))%list.
Proof. unfold net_vars, res_layer. rewrite !flat_map_app, flat_repeat. reflexivity. Qed.
Theorem C76_variables_lemma : forall c, let f := c_filters c in
  map fst (net_vars c) = (conv_spec (c_input c) f ++ norm_spec f
    ++ copies (c_blocks c) (conv_spec f f ++ conv_spec f f ++ norm_spec f ++ norm_spec f)
    ++ (conv_spec f 32 ++ norm_spec 32 ++ linear_spec (32 * c_conv c) (c_actions c))
    ++ conv_spec f 3 ++ norm_spec 3 ++ linear_spec (3 * c_conv c) 1)%list
  /\ length (net_vars c) = (22 + 12 * c_blocks c)%nat
  /\ (forall name sh trainable, In (name, sh, trainable) (net_vars c) -> (trainable = true <-> In name ["weight"; "bias"]) /\ (trainable = false <-> In name ["running_mean"; "running_var"])).
Proof.
  intros c f. split; [|split].
  - rewrite net_split, !map_app, map_copies. reflexivity.
  - rewrite net_split, !app_length. assert (H : forall n, length (copies n (layer_vars (Res (c_filters c)))) = (12 * n)%nat) by (intros n; induction n as [|n IH]; [reflexivity|]; cbn [copies]; rewrite app_length, IH; cbn; lia).
    rewrite H. cbn [flat_map init_block policy_head value_head layer_vars conv_vars norm_vars app length]. lia.
  - set (P := fun v : string * list nat * bool => (snd v = true <-> In (fst (fst v)) ["weight"; "bias"]) /\ (snd v = false <-> In (fst (fst v)) ["running_mean"; "running_var"])).
    assert (HF : Forall P (net_vars c)).
    { rewrite net_split. repeat (apply Forall_app; split); try apply Forall_copies; cbn [flat_map init_block policy_head value_head layer_vars conv_vars norm_vars app];
        repeat (apply Forall_cons; [unfold P; cbn [fst snd]; split; split; try (intros; discriminate); try (intros _; cbn; tauto); try (intros _; reflexivity); (intros H; exfalso; repeat (destruct H as [H|H]; [discriminate H|]); contradiction)|]); constructor. }
    intros name sh trainable Hin. rewrite Forall_forall in HF. exact (HF _ Hin).
Qed.
Lemma adjusted_app a b : adjusted (a ++ b) = (adjusted a + adjusted b)%N.
Proof. unfold adjusted. induction a as [|v a IH]; [reflexivity|]. cbn [app fold_right] in *. rewrite IH. lia. Qed.
Lemma adjusted_copies n l : adjusted (copies n l) = (N.of_nat n * adjusted l)%N.
Proof. induction n as [|n IH]; [reflexivity|]. cbn [copies]. rewrite adjusted_app, IH. lia. Qed.
Theorem C76_parameters_lemma :
  (forall c, let i := N.of_nat (c_input c) in let f := N.of_nat (c_filters c) in let b := N.of_nat (c_blocks c) in let k := N.of_nat (c_conv c) in let a := N.of_nat (c_actions c) in
     adjusted (net_vars c) = (f * (9 * i + 1) + 2 * f + b * (2 * (f * (9 * f + 1)) + 4 * f) + (32 * (9 * f + 1) + 64 + a * (32 * k + 1)) + (3 * (9 * f + 1) + 6 + (3 * k + 1)))%N)
  /\ adjusted (net_vars ttt_consts) = 321262%N /\ adjusted (net_vars bg_consts) = 23577594%N.
Proof.
  assert (HG : forall c, let i := N.of_nat (c_input c) in let f := N.of_nat (c_filters c) in let b := N.of_nat (c_blocks c) in let k := N.of_nat (c_conv c) in let a := N.of_nat (c_actions c) in
     adjusted (net_vars c) = (f * (9 * i + 1) + 2 * f + b * (2 * (f * (9 * f + 1)) + 4 * f) + (32 * (9 * f + 1) + 64 + a * (32 * k + 1)) + (3 * (9 * f + 1) + 6 + (3 * k + 1)))%N).
  { intros c i f b k a. rewrite net_split, !adjusted_app, adjusted_copies. fold b.
    cbn [flat_map init_block policy_head value_head layer_vars conv_vars norm_vars app adjusted fold_right volume fst snd]. unfold volume. cbn [fold_right]. rewrite !Nat2N.inj_mul. fold i f k a. change (N.of_nat 3) with 3%N. change (N.of_nat 32) with 32%N. change (N.of_nat 1) with 1%N. nia. }
  split; [exact HG|]. split; rewrite HG; vm_compute; reflexivity.
Qed.

(** ** names *)
Lemma add_all_app st a b : add_all st (a ++ b) = add_all (add_all st a) b.
Proof. unfold add_all. apply fold_left_app. Qed.
Lemma suffix_not_plain b k : ~ plain (b ++ "__" ++ show_nat k).
Proof. intros H. apply H. exists b, (show_nat k). reflexivity. Qed.
Lemma names_bases reqs : Forall (fun rq : string * tensor f32 => plain (fst rq)) reqs -> named_ok (add_all [] reqs) /\ length (add_all [] reqs) = length reqs
  /\ forall base, plain base -> (In base (map fst (add_all [] reqs)) <-> In base (map fst reqs)).
Proof.
  induction reqs as [|[b v] reqs IH] using rev_ind; intros HF; [split; [split; constructor|split; [reflexivity|intros base _; cbn; tauto]]|].
  apply Forall_app in HF. destruct HF as [HF Hb]. inversion Hb as [|? ? Hp _]; subst. cbn [fst] in Hp. destruct (IH HF) as (HN & HL & HI).
  rewrite add_all_app. cbn [add_all fold_left fst snd]. change (fold_left (fun st rq => add_var st (fst rq) (snd rq)) reqs []) with (add_all [] reqs).
  destruct (add_var_ok (add_all [] reqs) b v HN Hp) as [E HN']. split; [exact HN'|]. rewrite E, !app_length, !map_app. cbn [map fst length]. split; [lia|].
  intros base Hbase. rewrite !in_app_iff, HI by exact Hbase. cbn [In]. unfold name_for. destruct (find_var (add_all [] reqs) b) as [t|] eqn:Ef.
  - assert (Hin : In b (map fst reqs)). { apply HI; [exact Hp|]. destruct (in_dec string_dec b (map fst (add_all [] reqs))) as [H|H]; [exact H|]. apply find_none in H. congruence. }
    split; [intros [H|[H|[]]]; [left; exact H|exfalso; rewrite <- H in Hbase; exact (suffix_not_plain _ _ Hbase)]|intros [H|[H|[]]]; [left; exact H|left; rewrite <- H; exact Hin]].
  - reflexivity.
Qed.
Theorem C76_names_lemma : forall reqs, Forall (fun rq : string * tensor f32 => plain (fst rq)) reqs ->
  length (add_all [] reqs) = length reqs /\ forall k base v, nth_error reqs k = Some (base, v) ->
    (In base (map fst (firstn k reqs)) -> nth_error (add_all [] reqs) k = Some (base ++ "__" ++ show_nat k, v))
    /\ (~ In base (map fst (firstn k reqs)) -> nth_error (add_all [] reqs) k = Some (base, v)).
Proof.
  induction reqs as [|[b w] reqs IH] using rev_ind; intros HF; [split; [reflexivity|intros [|k] base v H; discriminate H]|].
  pose proof (names_bases _ HF) as (_ & HL & _). split; [exact HL|].
  apply Forall_app in HF. destruct HF as [HF Hb]. inversion Hb as [|? ? Hp _]; subst. cbn [fst] in Hp. destruct (IH HF) as [_ IHk]. destruct (names_bases _ HF) as (HN & HL' & HI).
  rewrite add_all_app. cbn [add_all fold_left fst snd]. change (fold_left (fun st rq => add_var st (fst rq) (snd rq)) reqs []) with (add_all [] reqs).
  destruct (add_var_ok (add_all [] reqs) b w HN Hp) as [E _]. rewrite E. intros k base v Hk.
  destruct (Nat.lt_ge_cases k (length reqs)) as [Hlt|Hge].
  - rewrite nth_error_app1 in Hk by exact Hlt. rewrite nth_error_app1 by lia. rewrite firstn_app. replace (k - length reqs)%nat with 0%nat by lia. cbn [firstn]. rewrite app_nil_r. apply IHk, Hk.
  - rewrite nth_error_app2 in Hk by exact Hge. assert (k = length reqs) by (assert (H := nth_error_Some [(b, w)] (k - length reqs)); rewrite Hk in H; cbn [length] in H; specialize (proj1 H ltac:(discriminate)); lia). subst k.
    rewrite Nat.sub_diag in Hk. cbn in Hk. injection Hk as -> ->. rewrite nth_error_app2 by lia. rewrite HL', Nat.sub_diag. cbn [nth_error].
    rewrite firstn_app, firstn_all, Nat.sub_diag. cbn [firstn]. rewrite app_nil_r. rewrite <- (HI base Hp). unfold name_for. rewrite HL'. split; intros H.
    + destruct (find_var (add_all [] reqs) base) eqn:Ef; [reflexivity|]. apply find_none in Ef. contradiction.
    + apply find_none in H. rewrite H. reflexivity.
Qed.

(** ** files of the other game *)
Lemma names_same reqs reqs' : Forall (fun rq : string * tensor f32 => plain (fst rq)) reqs -> map fst reqs' = map fst reqs -> map fst (add_all [] reqs') = map fst (add_all [] reqs).
Proof.
  intros HF E. destruct (add_all_ok reqs [] ltac:(split; constructor) HF) as (names & E1 & HL & _ & E4). rewrite E1, (E4 reqs' E [] eq_refl). cbn [app].
  assert (Hm : forall (l : list (tensor f32)), length l = length names -> map fst (combine names l) = names).
  { clear. induction names as [|n names IH]; intros [|x l] H; try discriminate H; [reflexivity|]. cbn. rewrite IH; [reflexivity|]. cbn in H. lia. }
  rewrite !Hm; [reflexivity| |]; rewrite map_length; [lia|]. apply (f_equal (@length _)) in E. rewrite !map_length in E. lia.
Qed.
Definition blank (c : consts) : list (string * tensor f32) := map (fun v => (fst (fst v), mkT [] [])) (net_vars c).
Lemma blank_names c : map fst (blank c) = map (fun v => fst (fst v)) (net_vars c).
Proof. unfold blank. rewrite map_map. reflexivity. Qed.
Lemma plain_names reqs c : map fst reqs = map (fun v => fst (fst v)) (net_vars c) -> Forall (fun rq : string * tensor f32 => plain (fst rq)) reqs.
Proof.
  intros E. pose proof (net_plain c) as H. rewrite <- Forall_map. rewrite E. rewrite Forall_map. exact H.
Qed.
Lemma missing_panics broadcast c c' reqs file name : map fst reqs = map (fun v => fst (fst v)) (net_vars c) ->
  In name (map fst (add_all [] (blank c))) -> ~ In name (map fst (add_all [] (blank c'))) ->
  Permutation (map fst file) (map fst (add_all [] (blank c'))) -> from_path broadcast reqs (Some file) = Panic PExplicit.
Proof.
  intros E Hin Hout HP. pose proof (plain_names reqs c E) as HF. destruct (C52_load_lemma broadcast reqs file HF) as (_ & Hmiss & _).
  assert (Hn : In name (map fst (add_all [] reqs))).
  { rewrite <- (names_same reqs (blank c) HF); [exact Hin|]. rewrite E. apply blank_names. }
  apply in_map_iff in Hn. destruct Hn as ([n t] & <- & Hn). cbn [fst] in *. apply (Hmiss n t Hn). apply find_none. intros H. apply Hout. apply (Permutation_in _ HP), H.
Qed.
Theorem C76_other_game_lemma : forall broadcast reqs_t reqs_b file_t file_b,
  map fst reqs_t = map (fun v => fst (fst v)) (net_vars ttt_consts) -> map fst reqs_b = map (fun v => fst (fst v)) (net_vars bg_consts) ->
  Permutation (map fst file_t) (map fst (add_all [] reqs_t)) -> Permutation (map fst file_b) (map fst (add_all [] reqs_b)) ->
  from_path broadcast reqs_b (Some file_t) = Panic PExplicit /\ from_path broadcast reqs_t (Some file_b) = Panic PExplicit.
Proof.
  intros broadcast reqs_t reqs_b file_t file_b Et Eb Pt Pb.
  rewrite <- (names_same reqs_t (blank ttt_consts) (plain_names _ _ Et)) in Pt by (rewrite blank_names, Et; reflexivity).
  rewrite <- (names_same reqs_b (blank bg_consts) (plain_names _ _ Eb)) in Pb by (rewrite blank_names, Eb; reflexivity).
  assert (Hb : In "running_mean__58" (map fst (add_all [] (blank ttt_consts))) /\ ~ In "running_mean__58" (map fst (add_all [] (blank bg_consts)))
    /\ In "bias__78" (map fst (add_all [] (blank bg_consts))) /\ ~ In "bias__78" (map fst (add_all [] (blank ttt_consts)))).
  { assert (HD : forall x l, existsb (String.eqb x) l = true -> In x l) by (intros x l H; apply existsb_exists in H; destruct H as (y & Hy & Ey); apply String.eqb_eq in Ey; subst; exact Hy).
    assert (HD' : forall x l, existsb (String.eqb x) l = false -> ~ In x l) by (intros x l H Hin; assert (existsb (String.eqb x) l = true) by (apply existsb_exists; exists x; split; [exact Hin|apply String.eqb_refl]); congruence).
    refine (conj (HD _ _ _) (conj (HD' _ _ _) (conj (HD _ _ _) (HD' _ _ _)))); vm_compute; reflexivity. }
  destruct Hb as (H1 & H2 & H3 & H4). split.
  - eapply missing_panics; [exact Eb|exact H3|exact H4|exact Pt].
  - eapply missing_panics; [exact Et|exact H1|exact H2|exact Pb].
Qed.
