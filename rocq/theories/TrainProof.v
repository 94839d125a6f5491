(** * TrainProof: shuffling, batches, stacking and the files of training data. *)
From Coq Require Import Permutation.
From Verif Require Import Base BaseFacts F32 Tensor TensorFacts VersusModel SelfModel TrainModel TrainSpec.

(** ** shuffling *)
Lemma nth_error_set (A : Type) (l : list A) : forall i j v, nth_error (set_nth l i v) j = if (i =? j)%nat then (if (i <? length l)%nat then Some v else None) else nth_error l j.
Proof.
  induction l as [|x l IH]; intros [|i] [|j] v; cbn [set_nth nth_error length Nat.eqb]; try reflexivity.
  - destruct (i =? j)%nat; reflexivity.
  - rewrite IH. reflexivity.
Qed.
Lemma set_nth_len' (A : Type) (l : list A) : forall i v, length (set_nth l i v) = length l.
Proof. induction l as [|x l IH]; intros [|i] v; cbn; auto. Qed.
Lemma set_nth_perm (A : Type) (l : list A) : forall i x v, nth_error l i = Some x -> Permutation (v :: l) (x :: set_nth l i v).
Proof.
  induction l as [|y l IH]; intros [|i] x v H; cbn in *; [discriminate..| |].
  - injection H as ->. apply perm_swap.
  - specialize (IH _ _ v H). etransitivity; [apply perm_swap|]. etransitivity; [apply perm_skip, IH|]. apply perm_swap.
Qed.
Lemma swap_perm (A : Type) (l : list A) i j : Permutation (swap l i j) l.
Proof.
  unfold swap. destruct (nth_error l i) as [x|] eqn:Ei; [|reflexivity]. destruct (nth_error l j) as [y|] eqn:Ej; [|reflexivity].
  pose proof (set_nth_perm _ _ _ _ y Ei) as H1.
  assert (Ej' : nth_error (set_nth l i y) j = Some y).
  { rewrite nth_error_set. destruct (i =? j)%nat; [|exact Ej]. assert (Hi : (i < length l)%nat) by (apply nth_error_Some; congruence). apply Nat.ltb_lt in Hi. rewrite Hi. reflexivity. }
  pose proof (set_nth_perm _ _ _ _ x Ej') as H2. apply Permutation_cons_inv with (a := y). rewrite <- H2. symmetry. exact H1.
Qed.
Lemma shuffle_perm (A : Type) (l : list A) r : Permutation (fst (shuffle l r)) l.
Proof.
  unfold shuffle. generalize (length l - 1)%nat. intros i. revert l r. induction i as [|i IH]; intros l r; cbn [shuffle_from]; [reflexivity|].
  destruct (gen_range 0 (Z.of_nat (S i)) r) as [j r1]. rewrite IH. apply swap_perm.
Qed.

(** ** batches *)
Lemma skipn_skipn (A : Type) (l : list A) : forall a b, skipn a (skipn b l) = skipn (b + a) l.
Proof. induction l as [|x l IH]; intros a [|b]; cbn [skipn plus]; try reflexivity; [destruct a; reflexivity|apply IH]. Qed.
Fixpoint chunks {A} (fuel bs : nat) (l : list A) : list (list A) :=
  match fuel with O => [] | S f => match l with [] => [] | _ => firstn bs l :: chunks f bs (skipn bs l) end end.
Lemma chunks_concat (A : Type) bs : (0 < bs)%nat -> forall fuel (l : list A), (length l <= fuel)%nat -> concat (chunks fuel bs l) = l.
Proof.
  intros Hb. induction fuel as [|f IH]; intros l Hl; [destruct l; [reflexivity|cbn in Hl; lia]|]. destruct l as [|x l]; [reflexivity|]. cbn [chunks concat].
  rewrite IH by (rewrite skipn_length; cbn [length] in *; lia). apply firstn_skipn.
Qed.
Lemma chunks_cut (A : Type) bs : (0 < bs)%nat -> forall fuel (l : list A), (length l <= fuel)%nat -> cut bs (chunks fuel bs l).
Proof.
  intros Hb. induction fuel as [|f IH]; intros l Hl; [constructor|]. destruct l as [|x l]; [constructor|]. cbn [chunks].
  destruct (skipn bs (x :: l)) as [|y l'] eqn:Es.
  - replace (chunks f bs []) with (@nil (list A)) by (destruct f; reflexivity). apply cut_last.
    + destruct bs; [lia|]. discriminate.
    + rewrite firstn_length. lia.
  - assert (Hlen : (bs < length (x :: l))%nat) by (assert (length (skipn bs (x :: l)) = S (length l')) by (rewrite Es; reflexivity); rewrite skipn_length in *; lia).
    rewrite <- Es. apply cut_full.
    + rewrite firstn_length. lia.
    + rewrite Es. destruct f; [cbn [length] in *; lia|]. discriminate.
    + apply IH. rewrite skipn_length. cbn [length] in *. lia.
Qed.
Section Batches.
  Variable pr : profile.
  Variable W : Type.
  Variable optimise : W -> tensor Z -> tensor f32 -> tensor Z -> res W.
  Definition on_batch (w : W) (b : list mem) : res W := '(x, p, o) <- batch_tensors b ;; optimise w x p o.
  Lemma train_batches bs memory : 1 <= bs < 2 ^ 64 -> Z.of_nat (length memory) < 2 ^ 63 -> forall fuel k w, (k <= length memory)%nat -> (length memory - k <= fuel)%nat ->
    ((k = 0)%nat \/ bs <= Z.of_nat k) ->
    mfold (train_batch pr W optimise memory bs) (step_by_from fuel (Z.of_nat k) bs (Z.of_nat (length memory))) w
    = mfold on_batch (chunks fuel (Z.to_nat bs) (skipn k memory)) w.
  Proof.
    intros Hbs Hlen. induction fuel as [|f IH]; intros k w Hk Hf Hfirst; [reflexivity|]. cbn [step_by_from chunks].
    destruct (Z.of_nat k <? Z.of_nat (length memory)) eqn:E.
    - apply Z.ltb_lt in E. destruct (skipn k memory) as [|x l] eqn:Es; [exfalso; assert (H : length (skipn k memory) = 0%nat) by (rewrite Es; reflexivity); rewrite skipn_length in H; lia|].
      rewrite <- Es. cbn [mfold]. unfold train_batch at 1.
      assert (Eu : usize pr (Z.of_nat k + bs) = Ok (Z.of_nat k + bs)).
      { unfold usize. destruct ((0 <=? Z.of_nat k + bs) && (Z.of_nat k + bs <? 2 ^ 64)) eqn:Eb; [reflexivity|]. exfalso. apply andb_false_iff in Eb. destruct Eb as [Eb|Eb]; [apply Z.leb_gt in Eb; lia|apply Z.ltb_ge in Eb; lia]. }
      rewrite Eu. cbn [bind]. set (hi := Z.min (Z.of_nat k + bs) (Z.of_nat (length memory))).
      assert (Esl : slice memory (Z.of_nat k) hi = Ok (firstn (Z.to_nat bs) (skipn k memory))).
      { unfold slice. replace ((0 <=? Z.of_nat k) && (Z.of_nat k <=? hi) && (hi <=? Z.of_nat (length memory))) with true.
        - f_equal. rewrite Nat2Z.id. unfold hi. destruct (Z.le_gt_cases (Z.of_nat k + bs) (Z.of_nat (length memory))) as [H|H].
          + f_equal. lia.
          + rewrite !firstn_all2; [reflexivity|rewrite skipn_length; lia..].
        - symmetry. unfold hi. rewrite !andb_true_iff. repeat split; apply Z.leb_le; lia. }
      rewrite Esl. cbn [bind]. unfold on_batch at 1. destruct (batch_tensors _) as [[[x' p] o]|]; [|reflexivity]. cbn [bind].
      destruct (optimise w x' p o) as [w'|]; [|reflexivity]. cbn [bind].
      destruct (Z.le_gt_cases (Z.of_nat k + bs) (Z.of_nat (length memory))) as [H|H].
      + replace (Z.of_nat k + bs) with (Z.of_nat (k + Z.to_nat bs)) by lia. rewrite IH by lia. f_equal. rewrite skipn_skipn. reflexivity.
      + replace (step_by_from f (Z.of_nat k + bs) bs (Z.of_nat (length memory))) with (@nil Z).
        * rewrite (skipn_all2 (n := Z.to_nat bs)) by (rewrite skipn_length; lia). destruct f; reflexivity.
        * destruct f; [reflexivity|]. cbn [step_by_from]. replace (Z.of_nat k + bs <? Z.of_nat (length memory)) with false by (symmetry; apply Z.ltb_ge; lia). reflexivity.
    - apply Z.ltb_ge in E. rewrite skipn_all2 by lia. reflexivity.
  Qed.
End Batches.

(** ** stacking *)
Lemma shape_eqb_refl l : shape_eqb l l = true.
Proof. induction l as [|x l IH]; [reflexivity|]. cbn. rewrite Nat.eqb_refl. exact IH. Qed.
Lemma map_nth_seq (A : Type) (d : A) (l : list A) : map (fun i => nth i l d) (seq 0 (length l)) = l.
Proof.
  apply nth_ext with (d := d) (d' := d); [rewrite map_length, seq_length; reflexivity|]. intros i Hi. rewrite map_length, seq_length in Hi.
  rewrite (nth_indep _ d (nth 0%nat l d)) by (rewrite map_length, seq_length; exact Hi). rewrite (map_nth (fun i => nth i l d)), seq_nth by exact Hi. reflexivity.
Qed.
Lemma seq_add a n : seq a n = map (fun k => (a + k)%nat) (seq 0 n).
Proof.
  revert a. induction n as [|n IH]; intros a; [reflexivity|]. cbn [seq map]. f_equal; [lia|]. rewrite IH, (IH 1%nat), map_map. apply map_ext. intros k. lia.
Qed.
Lemma concat_seq m n : concat (map (fun i => seq (i * m) m) (seq 0 n)) = seq 0 (n * m).
Proof.
  induction n as [|n IH]; [reflexivity|]. rewrite seq_S, map_app, concat_app, IH. cbn [map concat plus]. rewrite app_nil_r, <- seq_app. f_equal. lia.
Qed.
(** the offsets of all indices in order are 0, 1, 2, ... *)
Lemma ravel_indices sh : map (ravel sh) (indices sh) = seq 0 (numel sh).
Proof.
  induction sh as [|n sh IH]; [reflexivity|]. cbn [indices numel fold_right]. fold (numel sh). rewrite flat_map_concat_map, concat_map, map_map.
  rewrite <- concat_seq. f_equal. apply map_ext. intros i. rewrite map_map. cbn [ravel]. rewrite (seq_add (i * numel sh)), <- IH, map_map. reflexivity.
Qed.
Lemma get_all (A : Type) (d : A) (t : tensor A) sh : full_tensor sh t -> map (get d t) (indices sh) = data t.
Proof.
  intros [Hs Hd]. unfold get. rewrite Hs, <- (map_map (ravel sh) (fun k => nth k (data t) d)), ravel_indices, <- Hd. apply map_nth_seq.
Qed.
Lemma stack_concat (A : Type) (d : A) (ts : list (tensor A)) sh : ts <> [] -> Forall (full_tensor sh) ts ->
  stack d 0 ts = Ok (mkT (length ts :: sh) (concat (map data ts))).
Proof.
  intros Hne HF. unfold stack. destruct ts as [|t0 ts0] eqn:Ets; [contradiction|]. rewrite <- Ets in *. clear Hne.
  assert (H0 : shape t0 = sh) by (rewrite Ets in HF; inversion HF as [|? ? [H _] _]; exact H). rewrite H0.
  assert (Hall : forallb (fun u => shape_eqb (shape u) sh) ts = true).
  { apply forallb_forall. intros u Hu. rewrite Forall_forall in HF. destruct (HF u Hu) as [H _]. rewrite H. apply shape_eqb_refl. }
  rewrite Hall. cbn [andb Nat.leb insert_at firstn skipn app]. f_equal. f_equal. cbn [indices]. rewrite flat_map_concat_map, concat_map, map_map.
  f_equal. rewrite <- (map_nth_seq _ t0 ts) at 2. rewrite map_map. apply map_ext_in. intros i Hi. rewrite map_map. apply in_seq in Hi.
  cbn [nth remove_at firstn skipn app]. apply get_all. rewrite Forall_forall in HF. apply HF, nth_In. lia.
Qed.
Lemma cat_concat (A : Type) (ts : list (tensor A)) sh : ts <> [] -> Forall (full_tensor (1%nat :: sh)) ts ->
  cat0 ts = Ok (mkT (length ts :: sh) (concat (map data ts))).
Proof.
  intros Hne HF. unfold cat0. destruct ts as [|t0 ts0] eqn:Ets; [contradiction|]. rewrite <- Ets in *. clear Hne.
  assert (H0 : shape t0 = 1%nat :: sh) by (rewrite Ets in HF; inversion HF as [|? ? [H _] _]; exact H). rewrite H0. cbn [tl].
  assert (Hall : forallb (fun u => shape_eqb (tl (shape u)) sh && negb (length (shape u) =? 0)%nat) ts = true).
  { apply forallb_forall. intros u Hu. rewrite Forall_forall in HF. destruct (HF u Hu) as [H _]. rewrite H. cbn. rewrite shape_eqb_refl. reflexivity. }
  rewrite Hall. f_equal. f_equal. f_equal. clear -HF. induction HF as [|t ts [H _] HF IH]; [reflexivity|]. cbn [map fold_right length]. rewrite IH, H. reflexivity.
Qed.
(** row [i] of a concatenation of pieces of the same length *)
Lemma concat_piece (A : Type) (m : nat) (ls : list (list A)) : Forall (fun l => length l = m) ls -> forall i l, nth_error ls i = Some l ->
  firstn m (skipn (i * m) (concat ls)) = l.
Proof.
  induction 1 as [|l0 ls H0 HF IH]; intros [|i] l E; cbn in E; try discriminate.
  - injection E as <-. cbn [Nat.mul skipn concat]. rewrite firstn_app, H0, Nat.sub_diag. cbn [firstn]. rewrite app_nil_r, <- H0. apply firstn_all.
  - cbn [concat]. replace (S i * m)%nat with (length l0 + i * m)%nat by lia. rewrite skipn_app, skipn_all2 by lia. cbn [app].
    replace (length l0 + i * m - length l0)%nat with (i * m)%nat by lia. apply IH, E.
Qed.
Lemma numel_squeeze sh : numel (filter (fun n => negb (n =? 1)%nat) sh) = numel sh.
Proof.
  induction sh as [|n sh IH]; [reflexivity|]. cbn [filter]. destruct (n =? 1)%nat eqn:E; cbn [negb numel fold_right] in *; fold (numel sh).
  - apply Nat.eqb_eq in E. subst n. rewrite Nat.mul_1_l. exact IH.
  - fold (numel (filter (fun n => negb (n =? 1)%nat) sh)). rewrite IH. reflexivity.
Qed.
