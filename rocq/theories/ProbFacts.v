(** * ProbFacts: the prior and visit distributions, over any arithmetic and over the rationals. *)
From Coq Require Import Permutation QArith Qfield.
From Verif Require Import Base BaseFacts F32 F32Facts RoundFacts Tensor TensorFacts GameModel McModel McSpec McProof
  AlphaModel AlphaSpec AlphaPar2 SampleModel AlphaCount SampleFacts.
Require Import ZifyBool ZifyNat.
Open Scope Z_scope.

(** ** index_put of distinct positions permutes the new values into the list *)
Lemma set_nth_perm (A : Type) (z v : A) (l : list A) : forall i, (i < length l)%nat -> nth i l z = z ->
  Permutation (z :: set_nth l i v) (v :: l).
Proof.
  induction l as [|x l IH]; intros i Hi Hz; [cbn in Hi; lia|]. destruct i as [|i]; cbn [set_nth nth length] in *.
  - subst. apply perm_swap.
  - rewrite perm_swap. rewrite (IH i) by (try lia; exact Hz). apply perm_swap.
Qed.
Lemma puts_perm (A : Type) (z : A) (cvs : list (Z * A)) : forall l r, puts l cvs = Ok r -> NoDup (map fst cvs) ->
  (forall c, In c (map fst cvs) -> nth (Z.to_nat c) l z = z) -> Permutation (r ++ repeat z (length cvs)) (map snd cvs ++ l).
Proof.
  induction cvs as [|[c v] cvs IH]; intros l r E HN Hz.
  - injection E as <-. cbn. rewrite app_nil_r. reflexivity.
  - rewrite puts_cons in E. destruct (upd l c v) as [l'|] eqn:Eu; cbn [bind] in E; [|discriminate].
    apply upd_inv in Eu. destruct Eu as [Hc ->]. cbn [map fst snd] in *. inversion HN as [|? ? Hni HN']; subst.
    assert (Hrest : forall d, In d (map fst cvs) -> 0 <= d < Z.of_nat (length (set_nth l (Z.to_nat c) v))).
    { intros d Hd. apply in_map_iff in Hd. destruct Hd as ([d' v'] & <- & Hd). cbn [fst].
      destruct (puts_inv _ z _ _ _ E) as (_ & _ & H). apply (H HN' d' v' Hd). }
    assert (HP : Permutation (r ++ repeat z (length cvs)) (map snd cvs ++ set_nth l (Z.to_nat c) v)).
    { apply IH; [exact E|exact HN'|]. intros d Hd. rewrite nth_set_other; [apply Hz; right; exact Hd|].
      specialize (Hrest d Hd). intros Heq. assert (c = d) by lia. subst. contradiction. }
    cbn [length repeat app]. rewrite <- Permutation_middle. rewrite HP.
    rewrite Permutation_middle. rewrite set_nth_perm by (try lia; apply Hz; left; reflexivity).
    rewrite <- Permutation_middle. reflexivity.
Qed.
Lemma puts_map (A B : Type) (h : A -> B) (cvs : list (Z * A)) : forall l r, puts l cvs = Ok r ->
  puts (map h l) (map (fun cv => (fst cv, h (snd cv))) cvs) = Ok (map h r).
Proof.
  assert (Hset : forall l i v, map h (set_nth l i v) = set_nth (map h l) i (h v)).
  { induction l as [|x l IHl]; intros [|i] v; cbn; try reflexivity. f_equal. apply IHl. }
  induction cvs as [|[c v] cvs IH]; intros l r E.
  - injection E as <-. reflexivity.
  - rewrite puts_cons in E. destruct (upd l c v) as [l'|] eqn:Eu; cbn [bind] in E; [|discriminate].
    apply upd_inv in Eu. destruct Eu as [Hc ->]. cbn [map fst snd]. rewrite puts_cons, upd_ok by (rewrite map_length; exact Hc).
    cbn [bind]. rewrite <- Hset. apply IH. exact E.
Qed.
Lemma nth_repeat_any (A : Type) (d : A) n j : nth j (repeat d n) d = d.
Proof. revert j. induction n as [|n IH]; intros [|j]; cbn; auto. Qed.

(** ** the rationals *)
Definition qsum (l : list Q) : Q := fold_right Qplus 0%Q l.
Definition numQ : num := mkNum Q 0%Q 1%Q Qplus Qmult Qdiv qsum.

Lemma qsum_nil : qsum [] = 0%Q.
Proof. reflexivity. Qed.
Lemma qsum_cons x l : qsum (x :: l) = (x + qsum l)%Q.
Proof. reflexivity. Qed.
Lemma qsum_perm l l' : Permutation l l' -> (qsum l == qsum l')%Q.
Proof.
  induction 1; rewrite ?qsum_cons; [reflexivity|rewrite IHPermutation; reflexivity|ring|etransitivity; eassumption].
Qed.
Lemma qsum_app a b : (qsum (a ++ b) == qsum a + qsum b)%Q.
Proof. induction a as [|x a IH]; cbn [app]; rewrite ?qsum_cons, ?qsum_nil; [ring|]. rewrite IH. ring. Qed.
Lemma qsum_zeros n : (qsum (repeat 0%Q n) == 0)%Q.
Proof. induction n as [|n IH]; cbn [repeat]; rewrite ?qsum_cons; [reflexivity|]. rewrite IH. ring. Qed.
Lemma qsum_div l t : (qsum (map (fun x => x / t)%Q l) == qsum l / t)%Q.
Proof.
  induction l as [|x l IH]; cbn [map]; rewrite ?qsum_cons, ?qsum_nil; [unfold Qdiv; ring|].
  rewrite IH. unfold Qdiv. ring.
Qed.
Lemma qsum_eqv l : forall l', Forall2 Qeq l l' -> (qsum l == qsum l')%Q.
Proof. induction l as [|x l IH]; intros l' H; inversion H; subst; rewrite ?qsum_cons; [reflexivity|]. rewrite H2, (IH l'0) by assumption. reflexivity. Qed.
Lemma fold_left_qsum l : forall a, (fold_left Qplus l a == a + qsum l)%Q.
Proof. induction l as [|x l IH]; intros a; cbn [fold_left]; rewrite ?qsum_cons, ?qsum_nil; [ring|]. rewrite IH. ring. Qed.

(** [p] is the distribution on [0 .. A-1] that gives the position [c] of each entry [(c, w)]
    of [cws] the share of [w] in the total, and nothing to all other positions *)
Record shares (A : nat) (cws : list (Z * Q)) (p : list Q) : Prop := {
  sh_len : length p = A;
  sh_on : forall c w, In (c, w) cws -> (nth (Z.to_nat c) p 0 == w / qsum (map snd cws))%Q;
  sh_off : forall j, (j < A)%nat -> ~ In (Z.of_nat j) (map fst cws) -> (nth j p 0 == 0)%Q;
  sh_sum : (qsum p == 1)%Q
}.

Lemma shares_puts A cws r : puts (repeat 0%Q A) cws = Ok r -> NoDup (map fst cws) -> ~ (qsum (map snd cws) == 0)%Q ->
  (qsum r == qsum (map snd cws))%Q /\ shares A cws (map (fun x => (x / qsum r)%Q) r).
Proof.
  intros E HN HT. destruct (puts_inv _ 0%Q _ _ _ E) as (HL & Hoff & Hon). rewrite repeat_length in *.
  assert (Hs : (qsum r == qsum (map snd cws))%Q).
  { assert (HP : Permutation (r ++ repeat 0%Q (length cws)) (map snd cws ++ repeat 0%Q A)).
    { apply puts_perm; [exact E|exact HN|]. intros c _. apply nth_repeat_any. }
    apply qsum_perm in HP. rewrite !qsum_app, !qsum_zeros in HP. rewrite !Qplus_0_r in HP. exact HP. }
  split; [exact Hs|].
  assert (Hn : forall j, (j < A)%nat -> (nth j (map (fun x => (x / qsum r)%Q) r) 0 == nth j r 0 / qsum r)%Q).
  { intros j Hj. rewrite nth_indep with (d' := (0 / qsum r)%Q) by (rewrite map_length; lia). rewrite map_nth with (f := fun x => (x / qsum r)%Q). reflexivity. }
  constructor.
  - rewrite map_length. exact HL.
  - intros c w Hin. destruct (Hon HN c w Hin) as [Hr Hv]. rewrite Hn by lia. rewrite Hv, Hs. reflexivity.
  - intros j Hj Hnin. rewrite Hn by exact Hj. rewrite (Hoff j Hnin), nth_repeat_any. unfold Qdiv. ring.
  - rewrite qsum_div. rewrite Hs. unfold Qdiv. apply Qmult_inv_r. exact HT.
Qed.

(** ** the visit distribution over the rationals *)
Lemma visit_probs_shares A cv : (forall c w, In (c, w) cv -> 0 <= c < Z.of_nat A) -> NoDup (map fst cv) ->
  ~ (qsum (map snd cv) == 0)%Q -> exists p, visit_probs numQ A cv = Ok p /\ shares A cv p.
Proof.
  intros Hr HN HT. unfold visit_probs. cbn [numQ V v0 vdiv vsum]. rewrite put1_puts.
  assert (Hc : combine (map fst cv) (map snd cv) = cv) by (rewrite combine_map_map; clear; induction cv as [|[c w] cv IH]; cbn; [reflexivity|rewrite IH; reflexivity]).
  rewrite Hc. destruct (puts_ok _ cv (repeat 0%Q A)) as (r & E & _).
  { apply Forall_forall. intros [c w] Hin. rewrite repeat_length. eapply Hr. exact Hin. }
  rewrite E. cbn [bind]. eexists. split; [reflexivity|]. apply shares_puts; assumption.
Qed.

(** rows of a batch *)
Lemma visit_rows N A (cvs : list (list (Z * V N))) : (forall cv c w, In cv cvs -> In (c, w) cv -> 0 <= c < Z.of_nat A) ->
  exists rows, visit_probs_parallel N A cvs = Ok rows /\ length rows = length cvs
    /\ forall i cv, nth_error cvs i = Some cv -> exists r, puts (repeat (v0 N) A) cv = Ok r /\ nth_error rows i = Some (map (fun x => vdiv N x (vsum N r)) r).
Proof.
  intros Hr. unfold visit_probs_parallel. rewrite put2_puts2. rewrite combine_map_map.
  set (xyv := flat_map _ _).
  assert (Hid : map (fun x => (fst x, snd x)) xyv = xyv) by (clear; induction xyv as [|[a b] l IH]; cbn; [reflexivity|rewrite IH; reflexivity]).
  rewrite Hid. destruct (puts2_ok _ xyv A (repeat (repeat (v0 N) A) (length cvs))) as (m & E & HL & Hm).
  - intros row Hrow. apply repeat_spec in Hrow. subst. apply repeat_length.
  - apply Forall_forall. intros e He. unfold xyv in He. apply in_flat_map in He. destruct He as ([i cv] & Hic & He).
    apply in_map_iff in He. destruct He as ([c w] & <- & Hcw). cbn [fst snd]. rewrite repeat_length.
    pose proof (in_combine_l _ _ _ _ Hic) as Hi. apply in_seq in Hi. split; [lia|]. eapply Hr; [eapply in_combine_r; exact Hic|exact Hcw].
  - rewrite E. cbn [bind]. eexists. split; [reflexivity|]. rewrite repeat_length in HL. split; [rewrite map_length; exact HL|].
    intros i cv Ei. destruct (puts2_rows _ _ _ _ E) as [_ Hrows].
    assert (Hi : (i < length cvs)%nat) by (apply nth_error_Some; congruence).
    destruct (Hrows i (repeat (v0 N) A)) as (row' & E1 & E2).
    { clear -Hi. revert i Hi. generalize (repeat (v0 N) A) as x. induction (length cvs) as [|n IH]; intros x i Hi; [lia|]. destruct i; cbn; [reflexivity|apply IH; lia]. }
    exists row'. split.
    + unfold xyv in E2. rewrite of_row_numbered in E2. cbn [Nat.leb] in E2. rewrite Nat.sub_0_r in E2.
      rewrite (nth_error_nth _ _ [] Ei) in E2. exact E2.
    + rewrite nth_error_map, E1. reflexivity.
Qed.
Lemma visit_probs_parallel_shares A cvs :
  (forall cv c w, In cv cvs -> In (c, w) cv -> 0 <= c < Z.of_nat A) ->
  (forall cv, In cv cvs -> NoDup (map fst cv)) ->
  exists rows, visit_probs_parallel numQ A cvs = Ok rows /\ length rows = length cvs
    /\ forall i cv, nth_error cvs i = Some cv -> ~ (qsum (map snd cv) == 0)%Q -> exists p, nth_error rows i = Some p /\ shares A cv p.
Proof.
  intros Hr HN. destruct (visit_rows numQ A cvs Hr) as (rows & E & HL & Hrows). exists rows. split; [exact E|]. split; [exact HL|].
  intros i cv Ei HT. destruct (Hrows i cv Ei) as (r & Er & En). eexists. split; [exact En|].
  apply shares_puts; [exact Er|apply HN; eapply nth_error_In; exact Ei|exact HT].
Qed.

(** ** the priors over the rationals *)
Lemma mmap_idx N (policy : list (V N)) codes : (forall c, In c codes -> 0 <= c < Z.of_nat (length policy)) ->
  mmap (idx policy) codes = Ok (map (fun c => nth (Z.to_nat c) policy (v0 N)) codes).
Proof. intros H. apply mmap_ok. intros c Hc. apply idx_ok, H, Hc. Qed.
Lemma map_const (A B : Type) (b : B) (l : list A) : map (fun _ => b) l = repeat b (length l).
Proof. induction l as [|x l IH]; cbn; [reflexivity|rewrite IH; reflexivity]. Qed.

Definition weights (policy : list Q) (codes : list Z) : list (Z * Q) := map (fun c => (c, nth (Z.to_nat c) policy 0%Q)) codes.
Lemma weights_fst policy codes : map fst (weights policy codes) = codes.
Proof. unfold weights. rewrite map_map. cbn. apply map_id. Qed.

Lemma probs_tensor_shares policy codes : (forall c, In c codes -> 0 <= c < Z.of_nat (length policy)) -> NoDup codes ->
  ~ (qsum (map snd (weights policy codes)) == 0)%Q ->
  exists p, probs_tensor numQ policy codes = Ok p /\ shares (length policy) (weights policy codes) p.
Proof.
  intros Hr HN HT. unfold probs_tensor. rewrite mmap_idx by exact Hr. cbn [bind]. rewrite put1_puts. cbn [numQ v0 V vdiv vsum].
  assert (Hc : combine codes (map (fun c => nth (Z.to_nat c) policy 0%Q) codes) = weights policy codes).
  { unfold weights. clear. induction codes as [|c l IH]; cbn [map combine]; [reflexivity|rewrite IH; reflexivity]. }
  rewrite Hc, map_const. destruct (puts_ok _ (weights policy codes) (repeat 0%Q (length policy))) as (r & E & _).
  { apply Forall_forall. intros [c w] Hin. rewrite repeat_length. apply Hr. apply (in_map fst) in Hin. rewrite weights_fst in Hin. exact Hin. }
  rewrite E. cbn [bind]. eexists. split; [reflexivity|]. apply shares_puts; [exact E|rewrite weights_fst; exact HN|exact HT].
Qed.

Lemma forall2_nth (A B : Type) (R : A -> B -> Prop) da db (l : list A) : forall l', length l = length l' ->
  (forall j, (j < length l)%nat -> R (nth j l da) (nth j l' db)) -> Forall2 R l l'.
Proof.
  induction l as [|x l IH]; intros [|y l'] HL H; try discriminate; constructor.
  - apply (H 0%nat). cbn. lia.
  - apply IH; [cbn in HL; lia|]. intros j Hj. apply (H (S j)). cbn. lia.
Qed.

(** pointwise equal lists have the same shares *)
Lemma shares_eqv A cws p q : shares A cws p -> length q = A -> (forall j, (j < A)%nat -> (nth j q 0 == nth j p 0)%Q) ->
  (forall c w, In (c, w) cws -> 0 <= c < Z.of_nat A) -> shares A cws q.
Proof.
  intros [H1 H2 H3 H4] HL He Hr. constructor.
  - exact HL.
  - intros c w Hin. rewrite He by (specialize (Hr c w Hin); lia). apply H2. exact Hin.
  - intros j Hj Hn. rewrite He by exact Hj. apply H3; assumption.
  - rewrite <- H4. apply qsum_eqv. apply (forall2_nth _ _ _ 0%Q 0%Q); [congruence|]. intros j Hj. apply He. lia.
Qed.

Lemma probs_tensor_parallel_shares A (policy : list (list Q)) codes :
  (forall row, In row policy -> length row = A) -> length codes = length policy ->
  (forall cs c, In cs codes -> In c cs -> 0 <= c < Z.of_nat A) -> (forall cs, In cs codes -> NoDup cs) ->
  exists rows, probs_tensor_parallel numQ policy (seq 0 (length policy)) codes = Ok rows /\ length rows = length policy
    /\ forall i row cs, nth_error policy i = Some row -> nth_error codes i = Some cs -> ~ (qsum (map snd (weights row cs)) == 0)%Q ->
         exists p, nth_error rows i = Some p /\ shares A (weights row cs) p.
Proof.
  intros HA HLc Hr HN. unfold probs_tensor_parallel. rewrite put2_puts2. rewrite <- HLc. cbn [numQ V v0 v1 vmul vdiv vsum].
  set (xy := flat_map _ _).
  assert (Hxy : combine xy (map (fun _ => 1%Q) xy) = flat_map (fun ic => map (fun cv => ((Z.of_nat (fst ic), fst cv), snd cv)) (snd ic))
      (combine (seq 0 (length (map (map (fun c => (c, 1%Q))) codes))) (map (map (fun c => (c, 1%Q))) codes))).
  { unfold xy. rewrite map_length. generalize 0%nat as k. clear. induction codes as [|cs codes IH]; intros k; cbn [length seq combine flat_map map]; [reflexivity|].
    rewrite map_app. rewrite <- IH. cbn [fst snd].
    assert (Hca : forall (X Y : Type) (a b : list X) (c d : list Y), length a = length c -> combine (a ++ b) (c ++ d) = combine a c ++ combine b d).
    { induction a as [|x a IHa]; intros b [|y c] d H; try discriminate; [reflexivity|]. cbn. f_equal. apply IHa. cbn in H. lia. }
    rewrite Hca by (rewrite !map_length; reflexivity). f_equal. rewrite !map_map.
    clear. induction cs as [|c cs IHc]; cbn; [reflexivity|rewrite IHc; reflexivity]. }
  destruct (puts2_ok _ (combine xy (map (fun _ => 1%Q) xy)) A (map (map (fun _ => 0%Q)) policy)) as (m & E & HL & Hm).
  { intros row Hrow. apply in_map_iff in Hrow. destruct Hrow as (row0 & <- & Hrow). rewrite map_length. apply HA. exact Hrow. }
  { apply Forall_forall. intros [[x y] v] He. apply in_combine_l in He. unfold xy in He. apply in_flat_map in He. destruct He as ([i cs] & Hic & He).
    apply in_map_iff in He. destruct He as (c & [= <- <-] & Hcw). cbn [fst snd]. rewrite map_length.
    pose proof (in_combine_l _ _ _ _ Hic) as Hi. apply in_seq in Hi. cbn [fst snd] in *. split; [lia|]. eapply Hr; [eapply in_combine_r; exact Hic|exact Hcw]. }
  rewrite E. cbn [bind]. eexists. split; [reflexivity|]. rewrite map_length in HL.
  split; [rewrite !map_length, combine_length, HL, Nat.min_id; lia|].
  intros i row cs Erow Ecs HT. destruct (puts2_rows _ _ _ _ E) as [_ Hrows].
  destruct (Hrows i (map (fun _ => 0%Q) row)) as (mask & Em & Ep); [rewrite nth_error_map, Erow; reflexivity|].
  rewrite Hxy, of_row_numbered in Ep. cbn [Nat.leb] in Ep. rewrite Nat.sub_0_r in Ep.
  rewrite (nth_error_nth (map (map (fun c => (c, 1%Q))) codes) i [] (x := map (fun c => (c, 1%Q)) cs)) in Ep by (rewrite nth_error_map, Ecs; reflexivity).
  assert (Hmem : In cs codes) by (eapply nth_error_In; exact Ecs). assert (HLrow : length row = A) by (apply HA; eapply nth_error_In; exact Erow).
  destruct (puts_inv _ 0%Q _ _ _ Ep) as (HLm & Hoff & Hon). rewrite map_length in HLm.
  assert (Hfst : map fst (map (fun c => (c, 1%Q)) cs) = cs) by (rewrite map_map; apply map_id).
  rewrite Hfst in *.
  set (sel := map (fun ab => (fst ab * snd ab)%Q) (combine row mask)).
  assert (HLs : length sel = A) by (unfold sel; rewrite map_length, combine_length; lia).
  assert (Hsel : forall j, (j < A)%nat -> (nth j sel 0 = nth j row 0 * nth j mask 0)%Q).
  { intros j Hj. unfold sel. rewrite nth_indep with (d' := (fun ab : Q * Q => (fst ab * snd ab)%Q) (0%Q, 0%Q)) by (fold sel; lia).
    rewrite (map_nth (fun ab : Q * Q => (fst ab * snd ab)%Q)). rewrite combine_nth by lia. reflexivity. }
  (* the same vector, made by index_put *)
  destruct (puts_ok _ (weights row cs) (repeat 0%Q A)) as (r & Er & HLr).
  { apply Forall_forall. intros [c w] Hin. rewrite repeat_length. apply (in_map fst) in Hin. rewrite weights_fst in Hin. eapply Hr; eassumption. }
  rewrite repeat_length in HLr. destruct (puts_inv _ 0%Q _ _ _ Er) as (_ & Hoff' & Hon'). rewrite weights_fst in *.
  assert (Hpt : forall j, (j < A)%nat -> (nth j sel 0 == nth j r 0)%Q).
  { intros j Hj. rewrite Hsel by exact Hj. destruct (in_dec Z.eq_dec (Z.of_nat j) cs) as [Hin|Hnin].
    - destruct (Hon (HN _ Hmem) (Z.of_nat j) 1%Q) as [_ H1]; [apply in_map_iff; eauto|].
      destruct (Hon' (HN _ Hmem) (Z.of_nat j) (nth (Z.to_nat (Z.of_nat j)) row 0%Q)) as [_ H2]; [unfold weights; apply in_map_iff; eauto|].
      rewrite Nat2Z.id in *. rewrite H1, H2. ring.
    - rewrite (Hoff j Hnin), (Hoff' j Hnin), nth_repeat_any. rewrite map_const. rewrite nth_repeat_any. ring. }
  destruct (shares_puts A (weights row cs) r Er) as [Hqs HS]; [rewrite weights_fst; apply HN; exact Hmem|exact HT|].
  assert (Hqsel : (qsum sel == qsum r)%Q) by (apply qsum_eqv, (forall2_nth _ _ _ 0%Q 0%Q); [congruence|]; intros j Hj; apply Hpt; lia).
  exists (map (fun x => (x / qsum sel)%Q) sel). split.
  - rewrite nth_error_map. replace (nth_error (map _ (combine policy m)) i) with (Some sel); [reflexivity|].
    rewrite nth_error_map. replace (nth_error (combine policy m) i) with (Some (row, mask)); [reflexivity|].
    clear -Erow Em. revert m i Erow Em. induction policy as [|a policy IH]; intros [|b m] [|i] H1 H2; cbn in *; try discriminate; [congruence|]. apply IH; assumption.
  - eapply shares_eqv; [exact HS|rewrite map_length; exact HLs| |].
    + intros j Hj. rewrite nth_indep with (d' := (0 / qsum sel)%Q) by (rewrite map_length; lia). rewrite map_nth with (f := fun x => (x / qsum sel)%Q).
      rewrite (nth_indep (map _ r)) with (d' := (0 / qsum r)%Q) by (rewrite map_length; lia). rewrite map_nth with (f := fun x => (x / qsum r)%Q).
      rewrite Hqsel, (Hpt j Hj). reflexivity.
    + intros c w Hin. apply (in_map fst) in Hin. rewrite weights_fst in Hin. eapply Hr; eassumption.
Qed.

(** the vector version of the sequential search; 1352 entries whatever the game *)
Lemma div_loop (N : num) (t : V N) codes : forall vs, NoDup codes -> (forall c, In c codes -> 0 <= c < Z.of_nat (length vs)) ->
  exists r, mfold (fun vs c => x <- idx vs c ;; upd vs c (vdiv N x t)) codes vs = Ok r /\ length r = length vs
    /\ (forall j, ~ In (Z.of_nat j) codes -> nth j r (v0 N) = nth j vs (v0 N))
    /\ (forall c, In c codes -> nth (Z.to_nat c) r (v0 N) = vdiv N (nth (Z.to_nat c) vs (v0 N)) t).
Proof.
  induction codes as [|c codes IH]; intros vs HN Hr; [exists vs; cbn; repeat split; auto; intros ? []|].
  inversion HN as [|? ? Hni HN']; subst. cbn [mfold]. pose proof (Hr c (or_introl eq_refl)) as Hc.
  rewrite (idx_ok _ (v0 N)) by exact Hc. cbn [bind]. rewrite upd_ok by exact Hc. cbn [bind].
  set (v := vdiv N (nth (Z.to_nat c) vs (v0 N)) t).
  destruct (IH (set_nth vs (Z.to_nat c) v) HN') as (r & E & HL & H1 & H2).
  { intros d Hd. rewrite set_nth_len. apply Hr. right. exact Hd. }
  exists r. split; [exact E|]. rewrite set_nth_len in HL. split; [exact HL|]. split.
  - intros j Hj. rewrite H1 by (intros H; apply Hj; right; exact H). apply nth_set_other. intros <-. apply Hj. left. lia.
  - intros d [<-|Hd].
    + specialize (H1 (Z.to_nat c)). rewrite H1 by (rewrite Z2Nat.id by lia; exact Hni). apply nth_set_same. lia.
    + rewrite (H2 d Hd). f_equal. apply nth_set_other. intros Heq. specialize (Hr d (or_intror Hd)). assert (c = d) by lia. subst. contradiction.
Qed.
Lemma probs_vec_shares (policy : list Q) codes : (forall c, In c codes -> 0 <= c < 1352) -> NoDup codes ->
  (forall c, In c codes -> c < Z.of_nat (length policy)) ->
  ~ (qsum (map snd (weights policy codes)) == 0)%Q ->
  exists p, probs_vec numQ (idx policy) codes = Ok p /\ shares 1352 (weights policy codes) p.
Proof.
  intros Hr HN Hp HT. unfold probs_vec.
  assert (Hput : forall l, mfold (fun vs c => v <- idx policy c ;; upd vs c v) codes l = puts l (weights policy codes)).
  { unfold weights. clear HN HT. induction codes as [|c codes IH]; intros l; [reflexivity|]. cbn [mfold map]. rewrite puts_cons.
    rewrite (idx_ok _ 0%Q) by (specialize (Hr c (or_introl eq_refl)); specialize (Hp c (or_introl eq_refl)); lia). cbn [bind].
    destruct (upd l c (nth (Z.to_nat c) policy 0%Q)); cbn [bind]; [|reflexivity]. apply IH; intros d Hd; [apply Hr|apply Hp]; right; exact Hd. }
  cbn [numQ V v0 vadd vdiv] in *. rewrite Hput.
  destruct (puts_ok _ (weights policy codes) (repeat 0%Q 1352)) as (r & Er & HLr).
  { apply Forall_forall. intros [c w] Hin. rewrite repeat_length. apply (in_map fst) in Hin. rewrite weights_fst in Hin. cbn [fst] in *. specialize (Hr c Hin). lia. }
  rewrite Er. cbn [bind]. rewrite repeat_length in HLr.
  destruct (div_loop numQ (fold_left Qplus r 0%Q) codes r HN) as (p & E & HL & H1 & H2).
  { intros c Hc. specialize (Hr c Hc). cbn [numQ V]. lia. }
  cbn [numQ V v0 vadd vdiv] in *. exists p. split; [exact E|].
  destruct (shares_puts 1352 (weights policy codes) r Er) as [Hqs HS]; [rewrite weights_fst; exact HN|exact HT|].
  destruct (puts_inv _ 0%Q _ _ _ Er) as (_ & Hoff & _). rewrite weights_fst in *.
  eapply shares_eqv; [exact HS|lia| |].
  - intros j Hj. rewrite (nth_indep (map _ r)) with (d' := (0 / qsum r)%Q) by (rewrite map_length; lia). rewrite map_nth with (f := fun x => (x / qsum r)%Q).
    destruct (in_dec Z.eq_dec (Z.of_nat j) codes) as [Hin|Hnin].
    + specialize (H2 _ Hin). rewrite Nat2Z.id in H2. rewrite H2. rewrite fold_left_qsum, Qplus_0_l. reflexivity.
    + rewrite (H1 j Hnin), (Hoff j Hnin), nth_repeat_any. unfold Qdiv. ring.
  - intros c w Hin. apply (in_map fst) in Hin. rewrite weights_fst in Hin. specialize (Hr c Hin). lia.
Qed.
