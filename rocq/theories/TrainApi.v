(** * TrainApi: training batches, training data and the learning loop (C48-C50). *)
From Coq Require Import Permutation.
From Verif Require Import Base BaseFacts F32 RoundFacts Tensor TensorFacts TttModel TttApi BgModel BgTensor GameModel McModel McSpec GameFacts AlphaModel AlphaSpec AlphaInst SampleModel VisitSpec
  VersusModel SelfModel SelfSpec SelfApi SelfApi2 TrainModel TrainSpec TrainProof.

(** ** C48 *)
Theorem C48_batches_lemma : forall pr W optimise bs (w : W) memory r, 1 <= bs < 2 ^ 64 -> Z.of_nat (length memory) < 2 ^ 63 ->
  exists batches r', cut (Z.to_nat bs) batches /\ Permutation (concat batches) memory
    /\ train pr W optimise bs w memory r
       = (w' <- mfold (fun w b => '(x, p, o) <- batch_tensors b ;; optimise w x p o) batches w ;; Ok (w', concat batches, r')).
Proof.
  intros pr W optimise bs w memory r Hbs Hlen. unfold train. destruct (shuffle memory r) as [sh r1] eqn:Es.
  assert (HP : Permutation sh memory) by (pose proof (shuffle_perm _ memory r) as H; rewrite Es in H; exact H).
  exists (chunks (length sh) (Z.to_nat bs) sh), r1.
  assert (Hc : concat (chunks (length sh) (Z.to_nat bs) sh) = sh) by (apply chunks_concat; lia).
  split; [apply chunks_cut; lia|]. rewrite Hc. split; [exact HP|]. unfold step_by. destruct (bs =? 0) eqn:E0; [apply Z.eqb_eq in E0; lia|]. cbn [bind].
  rewrite Nat2Z.id. pose proof (train_batches pr W optimise bs sh Hbs ltac:(rewrite (Permutation_length HP); exact Hlen) (length sh) 0 w ltac:(lia) ltac:(lia) (or_introl eq_refl)) as H.
  change (Z.of_nat 0) with 0 in H. cbn [skipn] in H. rewrite H. reflexivity.
Qed.
Theorem C48_zero_lemma : forall pr W optimise (w : W) memory r, train pr W optimise 0 w memory r = Panic PAssert.
Proof. intros. unfold train. destruct (shuffle memory r). reflexivity. Qed.
Theorem C48_number_lemma : forall (A : Type) bs (batches : list (list A)), (0 < bs)%nat -> cut bs batches ->
  Forall (fun b => (0 < length b <= bs)%nat) batches
  /\ (batches <> [] -> ((length batches - 1) * bs < length (concat batches) <= length batches * bs)%nat)
  /\ forall i, (S i < length batches)%nat -> length (nth i batches []) = bs.
Proof.
  intros A bs batches Hbs H. induction H as [|b Hne Hle|b bb Hl Hne H IH].
  - split; [constructor|]. split; [contradiction|cbn; lia].
  - assert (Hb : (0 < length b)%nat) by (destruct b; [contradiction|cbn; lia]). split; [repeat constructor; assumption|]. split.
    + intros _. cbn [concat length]. rewrite app_nil_r. cbn [Nat.sub Nat.mul]. lia.
    + cbn. lia.
  - destruct IH as (IH1 & IH2 & IH3). split; [constructor; [lia|exact IH1]|]. split.
    + intros _. specialize (IH2 Hne). cbn [concat length]. rewrite app_length. destruct bb as [|b2 bb]; [contradiction|]. cbn [length] in *. lia.
    + intros [|i] Hi; [exact Hl|]. cbn [nth length] in *. apply IH3. lia.
Qed.
(** the tensors of a batch: row [i] belongs to fragment [i] *)
Theorem C48_tensors_lemma : forall a sh sample, sample <> [] -> uniform a sh sample -> sh <> [] ->
  let n := length sample in
  batch_tensors sample = Ok (mkT (n :: (if (hd 0 sh =? 1)%nat then tl sh else sh)) (concat (map (fun m => data (m_state m)) sample)),
                             mkT [n; a] (concat (map (fun m => data (m_ps m)) sample)),
                             mkT [n; 1%nat] (map m_outcome sample)).
Proof.
  intros a sh sample Hne HU Hsh n. unfold batch_tensors. unfold uniform in HU. rewrite Forall_forall in HU.
  rewrite (stack_concat _ f0 (map m_ps sample) [a]); [|destruct sample; [contradiction|discriminate]|apply Forall_forall; intros t Ht; apply in_map_iff in Ht; destruct Ht as (m & <- & Hm); apply HU, Hm].
  cbn [bind]. rewrite (stack_concat _ 0 (map m_state sample) sh); [|destruct sample; [contradiction|discriminate]|apply Forall_forall; intros t Ht; apply in_map_iff in Ht; destruct Ht as (m & <- & Hm); apply HU, Hm].
  cbn [bind]. rewrite !map_length, !map_map. unfold squeeze_dim. cbn [shape nth]. destruct sh as [|d sh]; [contradiction|]. cbn [nth hd tl].
  destruct (d =? 1)%nat; reflexivity.
Qed.

(** ** C49 *)
Lemma mmap_ok (A B : Type) (f : A -> res B) (g : A -> B) l : (forall x, In x l -> f x = Ok (g x)) -> mmap f l = Ok (map g l).
Proof. induction l as [|x l IH]; intros H; [reflexivity|]. cbn [mmap map]. rewrite (H x (or_introl eq_refl)). cbn [bind]. rewrite IH by (intros; apply H; right; assumption). reflexivity. Qed.
Lemma filter_keep (f : nat -> bool) l : Forall (fun n => f n = true) l -> filter f l = l.
Proof. induction 1 as [|n l H HF IH]; [reflexivity|]. cbn. rewrite H, IH. reflexivity. Qed.
Lemma wrap_small z : -128 <= z <= 127 -> wrap_i8 z = z.
Proof. intros H. unfold wrap_i8. rewrite Z.mod_small by lia. lia. Qed.
Lemma one_piece (A : Type) (l : list A) i x : nth_error l i = Some x -> firstn 1 (skipn i l) = [x].
Proof. revert i. induction l as [|y l IH]; intros [|i] H; cbn in *; try discriminate; [injection H as ->; reflexivity|apply IH, H]. Qed.
Theorem C49_round_trip_lemma : forall a sh ms, (2 <= length ms)%nat -> uniform a (1%nat :: sh) ms -> a <> 1%nat -> Forall (fun d => d <> 1%nat) sh ->
  Forall (fun m => -128 <= m_outcome m <= 127) ms ->
  exists s, save_training_data true ms = Ok s /\ load_training_data (Some s) = Ok (map drop_unit ms).
Proof.
  intros a sh ms Hn HU Ha Hsh Ho. unfold uniform in HU. unfold save_training_data.
  assert (Hne : ms <> []) by (intros ->; cbn in Hn; lia).
  assert (Hps : Forall (full_tensor [a]) (map m_ps ms)) by (apply Forall_forall; intros t Ht; apply in_map_iff in Ht; destruct Ht as (m & <- & Hm); rewrite Forall_forall in HU; apply HU, Hm).
  assert (Hst : Forall (full_tensor (1%nat :: sh)) (map m_state ms)) by (apply Forall_forall; intros t Ht; apply in_map_iff in Ht; destruct Ht as (m & <- & Hm); rewrite Forall_forall in HU; apply HU, Hm).
  rewrite (stack_concat _ f0 _ [a]) by first [exact Hps|destruct ms; [contradiction|discriminate]]. cbn [bind].
  rewrite (cat_concat _ _ sh) by first [exact Hst|destruct ms; [contradiction|discriminate]]. cbn [bind].
  eexists. split; [reflexivity|]. unfold load_training_data. cbn [sv_ps sv_states sv_outcomes]. rewrite !map_length, !map_map. unfold from_slice. rewrite map_length.
  unfold squeeze at 1 2 3 4. cbn [shape data].
  assert (E1 : filter (fun n => negb (n =? 1)%nat) [length ms; a] = [length ms; a]) by (apply filter_keep; repeat constructor; apply negb_true_iff, Nat.eqb_neq; [lia|exact Ha]).
  assert (E2 : filter (fun n => negb (n =? 1)%nat) (length ms :: sh) = length ms :: sh).
  { apply filter_keep. constructor; [apply negb_true_iff, Nat.eqb_neq; lia|]. eapply Forall_impl; [|exact Hsh]. intros d Hd. apply negb_true_iff, Nat.eqb_neq, Hd. }
  assert (E3 : filter (fun n => negb (n =? 1)%nat) [length ms] = [length ms]) by (apply filter_keep; repeat constructor; apply negb_true_iff, Nat.eqb_neq; lia).
  rewrite E1, E2, E3. unfold size0. cbn [shape bind].
  destruct ms as [|m0 ms0] eqn:Ems; [contradiction|]. rewrite <- Ems in *.
  rewrite (mmap_ok _ _ _ (fun i => drop_unit (nth i ms m0))).
  - f_equal. rewrite <- (map_nth_seq _ m0 ms) at 2. rewrite map_map. reflexivity.
  - intros i Hi. apply in_seq in Hi. assert (Hi' : (i < length ms)%nat) by lia. pose proof (nth_err _ m0 _ _ Hi') as En. set (m := nth i ms m0) in *.
    assert (Hin : In m ms) by (apply nth_In; exact Hi').
    assert (Hm : full_tensor [a] (m_ps m) /\ full_tensor (1%nat :: sh) (m_state m)) by (rewrite Forall_forall in HU; apply HU, Hin). destruct Hm as [[P1 P2] [S1 S2]].
    unfold select0. cbn [shape data]. apply Nat.ltb_lt in Hi'. rewrite Hi'. cbn [bind].
    replace (firstn (numel []) (skipn (i * numel []) (map m_outcome ms))) with [m_outcome m].
    2:{ symmetry. cbn [numel fold_right]. rewrite Nat.mul_1_r. apply Nat.ltb_lt in Hi'.
        assert (H : nth_error (map m_outcome ms) i = Some (m_outcome m)) by (apply map_nth_error, En).
        apply one_piece, H. }
    cbn [item data bind]. rewrite wrap_small by (rewrite Forall_forall in Ho; apply Ho, Hin).
    rewrite (concat_piece _ (numel [a])) with (l := data (m_ps m)).
    2:{ apply Forall_forall. intros l Hl. apply in_map_iff in Hl. destruct Hl as (m' & <- & Hm'). rewrite Forall_forall in HU. apply HU, Hm'. }
    2:{ exact (map_nth_error (fun x => data (m_ps x)) i ms En). }
    rewrite (concat_piece _ (numel sh)) with (l := data (m_state m)).
    2:{ apply Forall_forall. intros l Hl. apply in_map_iff in Hl. destruct Hl as (m' & <- & Hm'). rewrite Forall_forall in HU. destruct (HU m' Hm') as [_ [_ H]]. rewrite H. cbn [numel fold_right]. fold (numel sh). lia. }
    2:{ exact (map_nth_error (fun x => data (m_state x)) i ms En). }
    unfold squeeze, drop_unit. cbn [shape data]. rewrite S1. cbn [tl]. rewrite (filter_keep _ [a]) by (repeat constructor; apply negb_true_iff, Nat.eqb_neq, Ha).
    f_equal. f_equal. destruct (m_ps m) as [shp dat]. cbn in *. rewrite P1. reflexivity.
Qed.
(** data that were saved and loaded give the same batches as fresh ones *)
Theorem C49_same_batches_lemma : forall a c sh sample, sample <> [] -> uniform a (1%nat :: c :: sh) sample -> c <> 1%nat ->
  batch_tensors (map drop_unit sample) = batch_tensors sample.
Proof.
  intros a c sh sample Hne HU Hc. rewrite (C48_tensors_lemma a (1%nat :: c :: sh) sample Hne HU ltac:(discriminate)).
  rewrite (C48_tensors_lemma a (c :: sh) (map drop_unit sample)).
  - cbn [hd tl Nat.eqb]. replace (c =? 1)%nat with false by (symmetry; apply Nat.eqb_neq, Hc). rewrite map_length, !map_map. reflexivity.
  - destruct sample; [contradiction|discriminate].
  - unfold uniform in *. apply Forall_forall. intros m Hm. apply in_map_iff in Hm. destruct Hm as (m' & <- & Hm'). rewrite Forall_forall in HU. destruct (HU m' Hm') as [HP [S1 S2]].
    split; [exact HP|]. split; cbn [drop_unit m_state shape data]; [rewrite S1; reflexivity|]. rewrite S2. cbn [numel fold_right]. lia.
  - discriminate.
Qed.
Theorem C49_single_lemma : forall a sh m, uniform a (1%nat :: sh) [m] -> (2 <= a)%nat ->
  exists s, save_training_data true [m] = Ok s /\ exists p, load_training_data (Some s) = Panic p.
Proof.
  intros a sh m HU Ha. inversion HU as [|? ? [HP HS] _]; subst. unfold save_training_data. cbn [map].
  rewrite (stack_concat _ f0 [m_ps m] [a]) by first [discriminate|repeat constructor; apply HP]. cbn [bind].
  rewrite (cat_concat _ [m_state m] sh) by first [discriminate|repeat constructor; apply HS]. cbn [bind].
  eexists. split; [reflexivity|]. exists PIndex. unfold load_training_data. cbn [sv_ps sv_states sv_outcomes length map].
  unfold squeeze at 1 2 3 4. cbn [shape data length filter Nat.eqb negb from_slice].
  replace (a =? 1)%nat with false by (symmetry; apply Nat.eqb_neq; lia). cbn [negb size0 shape bind]. destruct a as [|a]; [lia|]. reflexivity.
Qed.
Theorem C49_empty_lemma : forall e, exists p, save_training_data e [] = Panic p.
Proof. intros []; eexists; reflexivity. Qed.

Lemma bg_tensor_full s x : bg_as_tensor s = Ok x -> full_tensor [1; 6; 4; 6]%nat x.
Proof.
  intros E. assert (HL : length (pts (bgboard s)) = 24%nat).
  { unfold bg_as_tensor in E. destruct ((fst (roll s) =? 0) && (snd (roll s) =? 0)); [discriminate|]. unfold view_as at 1 in E.
    destruct (numel [4; 6; 1]%nat =? numel (shape (from_slice (pts (bgboard s)))))%nat eqn:En; [|discriminate]. apply Nat.eqb_eq in En. cbn [numel fold_right shape from_slice] in En. lia. }
  destruct (C20_shape_and_content_lemma s HL) as [H1 H2]. destruct H2 as (t & Et & Hs & Hd & _); [intros Hr; destruct (proj2 H1 Hr) as [p Hp]; congruence|].
  rewrite E in Et. injection Et as <-. split; [exact Hs|exact Hd].
Qed.
Lemma ttt_tensor_full s x : ttt_as_tensor s = Ok x -> full_tensor [1; 3; 3; 3]%nat x.
Proof.
  unfold ttt_as_tensor. unfold view_as. destruct (numel [3; 3]%nat =? numel (shape (from_slice (tboard s))))%nat eqn:En; [|discriminate]. apply Nat.eqb_eq in En. cbn [numel fold_right shape from_slice] in En. cbn [bind].
  assert (HF : Forall (full_tensor [3; 3]%nat) [eq_scalar (-1) (mkT [3; 3]%nat (data (from_slice (tboard s)))); eq_scalar 0 (mkT [3; 3]%nat (data (from_slice (tboard s)))); eq_scalar 1 (mkT [3; 3]%nat (data (from_slice (tboard s))))]).
  { repeat constructor; cbn [data eq_scalar from_slice]; rewrite map_length; cbn [numel fold_right]; lia. }
  rewrite (stack_concat _ 0 _ [3; 3]%nat) by first [exact HF|discriminate]. cbn [bind]. intros X. injection X as <-. split; [reflexivity|].
  cbn [unsqueeze0 data map concat]. rewrite !app_length. cbn [length app]. cbn [data eq_scalar from_slice]. rewrite !map_length. cbn [numel fold_right length]. lia.
Qed.
Theorem C49_self_play_lemma : forall G I sh, play_game (G := G) I -> (forall s x, g_tensor G s = Ok x -> full_tensor sh x) ->
  forall tsum, tsum_ok tsum -> forall dirichlet, (forall k a rr, length (fst (dirichlet k a rr)) = k) ->
  forall unif, unif_ok unif -> forall tpow, pow_ok tpow -> forall nt, net_ok G nt ->
  forall cfg, SFltb f0 (dir_alpha cfg) = true -> (0 < iterations cfg)%nat ->
  forall hash, (forall j (m : list (nat * St G)), Permutation (hash j m) m) ->
  forall order, (forall j n, Permutation (order j n) (seq 0 n)) ->
  forall n fuel r out r', 1 + Z.of_nat (iterations cfg) * Z.of_nat (S n) <= 2 ^ 24 -> (sim_limit cfg < fuel)%nat ->
  self_play_parallel tsum dirichlet unif tpow nt cfg hash order fuel n r = Ok (out, r') ->
  uniform (asize G) sh (map mem_of out) /\ Forall (fun m => -128 <= m_outcome m <= 127) (map mem_of out).
Proof.
  intros G I sh HP HT tsum HS dir HD unif HU tpow HPow nt HN cfg HA HIt hash HH order HO n fuel r out r' HB HF Hrun.
  destruct (C45_samples_lemma G I HP tsum HS dir HD unif HU tpow HPow nt HN cfg HA HIt hash HH order HO n fuel r HB HF) as (games & out' & r2 & parts & Erun & _ & _ & Eo & _ & Hb).
  rewrite Hrun in Erun. injection Erun as <- <-. split; apply Forall_forall; intros m Hm; apply in_map_iff in Hm; destruct Hm as (f & <- & Hf).
  - destruct (C47_policies_lemma G I HP tsum HS dir HD unif HU tpow HPow nt HN cfg HA HIt hash HH order HO n fuel r out r' HB Hrun f Hf) as (s & ks & Hx & HK).
    destruct (sp_length _ _ _ _ HK) as [HL _]. split; [|apply (HT s), Hx]. split; cbn; [rewrite HL; reflexivity|lia].
  - rewrite Eo in Hf. apply in_concat in Hf. destruct Hf as (b & Hbin & Hf). apply in_map_iff in Hbin. destruct Hbin as ([i b'] & Heq & Hin). cbn in Heq. subst b'.
    destruct (Hb i b Hin) as (s0 & _ & Hblock). cbn [mem_of m_outcome]. destruct (C45_labels_lemma _ _ _ _ _ _ Hblock Hf) as [->|[->| ->]]; lia.
Qed.

(** ** C50 *)
Lemma bind_ok (A B : Type) (e : res A) (k : A -> res B) v : bind e k = Ok v -> exists a, e = Ok a /\ k a = Ok v.
Proof. destruct e as [a|p]; [exists a; auto|discriminate]. Qed.
Lemma flat_map_ext_in (A B : Type) (f g : A -> list B) l : (forall x, In x l -> f x = g x) -> flat_map f l = flat_map g l.
Proof. induction l as [|x l IH]; intros H; [reflexivity|]. cbn. rewrite (H x (or_introl eq_refl)), IH by (intros; apply H; right; assumption). reflexivity. Qed.
Section Learn.
  Variable pr : profile.
  Variable W : Type.
  Variable optimise : W -> tensor Z -> tensor f32 -> tensor Z -> res W.
  Variable self_play : W -> rng -> res (list frag * rng).
  Variable mkdir : nat -> nat -> bool.
  Variable no_nan : W -> bool.
  Variable gate : W -> nat -> rng -> res (rng).
  Lemma learn_self_play_runs l w : forall n i memory files r memory' files' r',
    mfold (learn_self_play W self_play mkdir l w) (seq i n) (memory, files, r) = Ok (memory', files', r') ->
    exists R ss, length R = n /\ length ss = n /\ Forall (fun out => exists ra rb, self_play w ra = Ok (out, rb)) R
      /\ memory' = memory ++ map mem_of (concat R)
      /\ files' = files ++ map (fun k => (l, i + k, nth k ss (mkSaved (mkT [] []) (mkT [] []) (mkT [] []))))%nat (seq 0 n)
      /\ forall k, (k < n)%nat -> save_training_data true (memory ++ map mem_of (concat (firstn (S k) R))) = Ok (nth k ss (mkSaved (mkT [] []) (mkT [] []) (mkT [] []))).
  Proof.
    induction n as [|n IH]; intros i memory files r memory' files' r' H; cbn [seq mfold] in H.
    - injection H as <- <- <-. exists [], []. cbn. rewrite !app_nil_r. repeat split; [constructor|lia].
    - apply bind_ok in H. destruct H as ([[m1 f1] r1] & Hs & H). unfold learn_self_play in Hs. apply bind_ok in Hs. destruct Hs as ([out r2] & Ho & Hs). apply bind_ok in Hs. destruct Hs as (s & Hsave & Hs).
      injection Hs as <- <- <-. destruct (IH _ _ _ _ _ _ _ H) as (R & ss & HR & Hss & HF & Em & Ef & Hk).
      assert (Hd : mkdir l i = true) by (destruct (mkdir l i); [reflexivity|discriminate Hsave]). rewrite Hd in Hsave.
      exists (out :: R), (s :: ss). repeat split; [cbn; lia|cbn; lia|constructor; [exists r, r2; exact Ho|exact HF]|..].
      + rewrite Em. cbn [concat]. rewrite map_app, app_assoc. reflexivity.
      + rewrite Ef. rewrite <- app_assoc. f_equal. cbn [seq map nth app]. rewrite Nat.add_0_r. f_equal. rewrite <- seq_shift, map_map. apply map_ext. intros k. cbn [nth]. f_equal. f_equal. lia.
      + intros [|k] Hlt.
        * cbn [firstn concat nth]. rewrite app_nil_r. exact Hsave.
        * change (firstn (S (S k)) (out :: R)) with (out :: firstn (S k) R). cbn [concat nth]. rewrite map_app, app_assoc. apply Hk. lia.
  Qed.
  Definition no_file := mkSaved (mkT [] []) (mkT [] []) (mkT [] []).
  Theorem learn_cumulative : forall iterations sp_iterations epochs bs w r w' files r',
    learn_parallel pr W optimise self_play mkdir no_nan gate iterations sp_iterations epochs bs w r = Ok (w', files, r') ->
    exists (R : nat -> list (list frag)) (S_ : nat -> nat -> saved),
      files = flat_map (fun l => map (fun i => (l, i, S_ l i)) (seq 0 sp_iterations)) (seq 0 iterations)
      /\ (forall l, (l < iterations)%nat -> length (R l) = sp_iterations
            /\ exists wl, Forall (fun out => exists ra rb, self_play wl ra = Ok (out, rb)) (R l))
      /\ forall l i, (l < iterations)%nat -> (i < sp_iterations)%nat ->
           save_training_data true (map mem_of (concat (firstn (S i) (R l)))) = Ok (S_ l i).
  Proof.
    intros iterations n epochs bs w r w' files r'. unfold learn_parallel.
    enough (H : forall k l0 w files0 r, mfold (learn_iteration pr W optimise self_play mkdir no_nan gate n epochs bs) (seq l0 k) (w, files0, r) = Ok (w', files, r') ->
      exists (R : nat -> list (list frag)) (S_ : nat -> nat -> saved),
      files = files0 ++ flat_map (fun l => map (fun i => (l, i, S_ l i)) (seq 0 n)) (seq l0 k)
      /\ (forall l, (l0 <= l < l0 + k)%nat -> length (R l) = n /\ exists wl, Forall (fun out => exists ra rb, self_play wl ra = Ok (out, rb)) (R l))
      /\ forall l i, (l0 <= l < l0 + k)%nat -> (i < n)%nat -> save_training_data true (map mem_of (concat (firstn (S i) (R l)))) = Ok (S_ l i)).
    { intros E. destruct (H _ _ _ _ _ E) as (R & S_ & E1 & E2 & E3). exists R, S_. split; [exact E1|]. split; intros; [apply E2; lia|apply E3; lia]. }
    clear w r. induction k as [|k IH]; intros l0 w files0 r E; cbn [seq mfold] in E.
    - injection E as <- <- <-. exists (fun _ => []), (fun _ _ => no_file). cbn. rewrite app_nil_r. split; [reflexivity|]. split; intros; lia.
    - apply bind_ok in E. destruct E as ([[w1 f1] r1] & Hit & E). unfold learn_iteration in Hit. apply bind_ok in Hit. destruct Hit as ([[m1 f2] r2] & Hsp & Hit). apply bind_ok in Hit. destruct Hit as ([[w2 m2] r3] & Htr & Hit).
      destruct (no_nan w2); [|discriminate Hit]. apply bind_ok in Hit. destruct Hit as (r4 & Hg & Hit). injection Hit as <- <- <-.
      destruct (learn_self_play_runs _ _ _ _ _ _ _ _ _ _ Hsp) as (R0 & ss & HR0 & Hss & HF & _ & Ef & Hk). destruct (IH _ _ _ _ E) as (R & S_ & E1 & E2 & E3).
      exists (fun l => if (l =? l0)%nat then R0 else R l), (fun l i => if (l =? l0)%nat then nth i ss no_file else S_ l i). split; [|split].
      + rewrite E1, Ef. rewrite <- app_assoc. f_equal. cbn [seq flat_map]. rewrite Nat.eqb_refl. f_equal.
        apply flat_map_ext_in. intros l Hl. apply in_seq in Hl. replace (l =? l0)%nat with false by (symmetry; apply Nat.eqb_neq; lia). reflexivity.
      + intros l Hl. destruct (Nat.eqb_spec l l0) as [->|Hne]; [split; [exact HR0|exists w; exact HF]|apply E2; lia].
      + intros l i Hl Hi. destruct (Nat.eqb_spec l l0) as [->|Hne]; [exact (Hk i Hi)|apply E3; lia].
  Qed.
End Learn.
Theorem C50_cumulative_lemma : forall pr W optimise self_play mkdir no_nan gate iterations sp_iterations epochs bs w r w' files r',
  learn_parallel pr W optimise self_play mkdir no_nan gate iterations sp_iterations epochs bs w r = Ok (w', files, r') ->
  exists (R : nat -> list (list frag)) (S_ : nat -> nat -> saved),
    files = flat_map (fun l => map (fun i => (l, i, S_ l i)) (seq 0 sp_iterations)) (seq 0 iterations)
    /\ (forall l, (l < iterations)%nat -> length (R l) = sp_iterations
          /\ exists wl, Forall (fun out => exists ra rb, self_play wl ra = Ok (out, rb)) (R l))
    /\ forall l i, (l < iterations)%nat -> (i < sp_iterations)%nat ->
         save_training_data true (map mem_of (concat (firstn (S i) (R l)))) = Ok (S_ l i).
Proof. exact learn_cumulative. Qed.
(** loading all the data of a learn iteration: the data of self-play [i] appear [n - i] times *)
Lemma prefixes_cons (A : Type) (b : list A) R : forall l,
  Permutation (concat (map (fun i => concat (firstn (S i) (b :: R))) l))
              (concat (repeat b (length l)) ++ concat (map (fun i => concat (firstn i R)) l)).
Proof.
  induction l as [|i l IH]; [reflexivity|]. cbn [map concat length repeat firstn] in *. rewrite IH. rewrite <- !app_assoc. apply Permutation_app_head.
  rewrite !app_assoc. apply Permutation_app_tail, Permutation_app_comm.
Qed.
Lemma repeated_prefixes (A : Type) (R : list (list A)) :
  Permutation (concat (map (fun i => concat (firstn (S i) R)) (seq 0 (length R))))
              (concat (map (fun i => concat (repeat (nth i R []) (length R - i))) (seq 0 (length R)))).
Proof.
  induction R as [|b R IH]; [reflexivity|]. rewrite prefixes_cons, seq_length. cbn [length seq map concat nth]. rewrite Nat.sub_0_r. cbn [firstn concat app].
  apply Permutation_app_head. rewrite <- seq_shift, !map_map. exact IH.
Qed.
Theorem C50_multiplicity_lemma : forall a sh (R : list (list frag)) ss,
  length ss = length R -> (forall i s, nth_error ss i = Some s -> save_training_data true (map mem_of (concat (firstn (S i) R))) = Ok s) ->
  uniform a (1%nat :: sh) (map mem_of (concat R)) -> a <> 1%nat -> Forall (fun d => d <> 1%nat) sh ->
  Forall (fun f => -128 <= fr_outcome f <= 127) (concat R) -> (2 <= length (hd [] R))%nat ->
  exists loaded, mmap (fun s => load_training_data (Some s)) ss = Ok loaded
    /\ Permutation (concat loaded)
         (concat (map (fun i => concat (repeat (map (fun f => drop_unit (mem_of f)) (nth i R [])) (length R - i))) (seq 0 (length R)))).
Proof.
  intros a sh R ss Hl Hs HU Ha Hsh Ho Hhd. exists (map (fun i => map drop_unit (map mem_of (concat (firstn (S i) R)))) (seq 0 (length R))). split.
  - destruct ss as [|s0 ss0] eqn:Ess; [destruct R; [reflexivity|discriminate Hl]|]. rewrite <- Ess in *.
    replace ss with (map (fun i => nth i ss s0) (seq 0 (length R))) by (rewrite <- Hl; apply map_nth_seq).
    assert (Hmm : forall l, (forall i, In i l -> (i < length R)%nat) -> mmap (fun s => load_training_data (Some s)) (map (fun i => nth i ss s0) l) = Ok (map (fun i => map drop_unit (map mem_of (concat (firstn (S i) R)))) l)).
    { induction l as [|i l IH]; intros Hin; [reflexivity|]. cbn [map mmap].
      assert (Hi : (i < length R)%nat) by (apply Hin; left; reflexivity).
      assert (Hpre : exists rest, concat R = concat (firstn (S i) R) ++ rest) by (exists (concat (skipn (S i) R)); rewrite <- concat_app, firstn_skipn; reflexivity). destruct Hpre as [rest Hrest].
      destruct (C49_round_trip_lemma a sh (map mem_of (concat (firstn (S i) R)))) as (s & E1 & E2).
      - destruct R as [|b R]; [cbn in Hi; lia|]. cbn [firstn concat hd] in *. rewrite map_length, app_length. lia.
      - unfold uniform in *. rewrite Hrest, map_app in HU. apply Forall_app in HU. apply HU.
      - exact Ha.
      - exact Hsh.
      - apply Forall_forall. intros m Hm. apply in_map_iff in Hm. destruct Hm as (f & <- & Hf). rewrite Forall_forall in Ho. apply (Ho f). rewrite Hrest. apply in_or_app. left. exact Hf.
      - rewrite (Hs i (nth i ss s0)) in E1 by (apply nth_err; lia). injection E1 as ->. rewrite E2. cbn [bind]. rewrite IH by (intros; apply Hin; right; assumption). reflexivity. }
    apply Hmm. intros i Hi. apply in_seq in Hi. lia.
  - set (R' := map (map (fun f => drop_unit (mem_of f))) R).
    replace (map (fun i => map drop_unit (map mem_of (concat (firstn (S i) R)))) (seq 0 (length R))) with (map (fun i => concat (firstn (S i) R')) (seq 0 (length R'))).
    + replace (map (fun i => concat (repeat (map (fun f => drop_unit (mem_of f)) (nth i R [])) (length R - i))) (seq 0 (length R))) with (map (fun i => concat (repeat (nth i R' []) (length R' - i))) (seq 0 (length R'))).
      * apply repeated_prefixes.
      * unfold R'. rewrite map_length. apply map_ext. intros i. f_equal. f_equal. change (@nil mem) with (map (fun f => drop_unit (mem_of f)) []). apply map_nth.
    + unfold R'. rewrite map_length. apply map_ext. intros i. rewrite firstn_map, map_map. symmetry. apply concat_map.
Qed.
(** the same for the data of the real self-play *)
Theorem C50_self_play_lemma : forall G I sh, play_game (G := G) I -> (forall s x, g_tensor G s = Ok x -> full_tensor (1%nat :: sh) x) ->
  asize G <> 1%nat -> Forall (fun d => d <> 1%nat) sh ->
  forall tsum, tsum_ok tsum -> forall dirichlet, (forall k a rr, length (fst (dirichlet k a rr)) = k) ->
  forall unif, unif_ok unif -> forall tpow, pow_ok tpow -> forall W (nets : W -> net), (forall w, net_ok G (nets w)) ->
  forall cfg, SFltb f0 (dir_alpha cfg) = true -> (0 < iterations cfg)%nat ->
  forall hash, (forall j (m : list (nat * St G)), Permutation (hash j m) m) ->
  forall order, (forall j n, Permutation (order j n) (seq 0 n)) ->
  forall n fuel, 1 + Z.of_nat (iterations cfg) * Z.of_nat (S n) <= 2 ^ 24 -> (sim_limit cfg < fuel)%nat ->
  forall pr optimise mkdir no_nan gate learn_iterations sp_iterations epochs bs w r w' files r',
  learn_parallel pr W optimise (fun w r => self_play_parallel tsum dirichlet unif tpow (nets w) cfg hash order fuel n r) mkdir no_nan gate
    learn_iterations sp_iterations epochs bs w r = Ok (w', files, r') ->
  exists R : nat -> list (list frag), forall l, (l < learn_iterations)%nat -> length (R l) = sp_iterations
    /\ ((2 <= length (hd [] (R l)))%nat -> exists loaded,
          mmap (fun f => load_training_data (Some (snd f))) (filter (fun f => (fst (fst f) =? l)%nat) files) = Ok loaded
          /\ Permutation (concat loaded)
               (concat (map (fun i => concat (repeat (map (fun f => drop_unit (mem_of f)) (nth i (R l) [])) (sp_iterations - i))) (seq 0 sp_iterations)))).
Proof.
  intros G I sh HP HT Ha Hsh tsum HS dir HD unif HU tpow HPow W nets HN cfg HA HIt hash HH order HO n fuel HB HF pr optimise mkdir no_nan gate li spi epochs bs w r w' files r' Hrun.
  destruct (C50_cumulative_lemma _ _ _ _ _ _ _ _ _ _ _ _ _ _ _ _ Hrun) as (R & S_ & Ef & HR & Hsv). exists R. intros l Hl. destruct (HR l Hl) as [Hlen (wl & Hout)]. split; [exact Hlen|]. intros Hhd.
  assert (Hu : uniform (asize G) (1%nat :: sh) (map mem_of (concat (R l))) /\ Forall (fun f => -128 <= fr_outcome f <= 127) (concat (R l))).
  { clear -Hout HP HT HS HD HU HPow HN HA HIt HH HO HB HF. unfold uniform. induction (R l) as [|b bb IH]; [split; constructor|]. inversion Hout as [|? ? (ra & rb & Hsp) Hrest]; subst.
    destruct (IH Hrest) as [IH1 IH2]. destruct (C49_self_play_lemma G I (1%nat :: sh) HP HT tsum HS dir HD unif HU tpow HPow (nets wl) (HN wl) cfg HA HIt hash HH order HO n fuel ra b rb HB HF Hsp) as [H1 H2].
    cbn [concat]. rewrite map_app. split; [apply Forall_app; split; assumption|]. apply Forall_app. split; [|exact IH2].
    apply Forall_forall. intros f Hf. rewrite Forall_forall in H2. apply (H2 (mem_of f)). apply in_map, Hf. }
  destruct Hu as [Hu Ho].
  destruct (C50_multiplicity_lemma (asize G) sh (R l) (map (S_ l) (seq 0 spi))) as (loaded & E1 & E2); try assumption.
  - rewrite map_length, seq_length. symmetry. exact Hlen.
  - intros i s E. assert (Hi : (i < spi)%nat) by (assert (H : nth_error (map (S_ l) (seq 0 spi)) i <> None) by congruence; apply nth_error_Some in H; rewrite map_length, seq_length in H; exact H).
    rewrite (map_nth_error (S_ l) i (seq 0 spi) (d := i)) in E by (rewrite (nth_err _ 0%nat) by (rewrite seq_length; exact Hi); rewrite seq_nth by exact Hi; reflexivity).
    injection E as <-. apply Hsv; assumption.
  - exists loaded. split.
    + replace (filter (fun f => (fst (fst f) =? l)%nat) files) with (map (fun i => (l, i, S_ l i)) (seq 0 spi)).
      * clear -E1. revert loaded E1. generalize (seq 0 spi). intros ls. induction ls as [|i ls IH]; intros loaded E; [exact E|]. cbn [map mmap snd] in *.
        destruct (load_training_data (Some (S_ l i))) as [x|p]; [|discriminate E]. cbn [bind] in *. destruct (mmap _ (map (S_ l) ls)) as [y|p] eqn:Ey; [|discriminate E].
        rewrite (IH _ eq_refl). exact E.
      * rewrite Ef. clear -Hl.
        assert (Hone : forall k (l0 : nat), filter (fun f : nat * nat * saved => (fst (fst f) =? l)%nat) (flat_map (fun l1 => map (fun i => (l1, i, S_ l1 i)) (seq 0 spi)) (seq l0 k))
                 = if (l0 <=? l)%nat && (l <? l0 + k)%nat then map (fun i => (l, i, S_ l i)) (seq 0 spi) else []).
        { induction k as [|k IH]; intros l0; cbn [seq flat_map].
          - destruct (Nat.leb_spec l0 l), (Nat.ltb_spec l (l0 + 0)); try reflexivity; lia.
          - rewrite filter_app, IH.
            assert (Hf : filter (fun f : nat * nat * saved => (fst (fst f) =? l)%nat) (map (fun i => (l0, i, S_ l0 i)) (seq 0 spi)) = if (l0 =? l)%nat then map (fun i => (l0, i, S_ l0 i)) (seq 0 spi) else []).
            { generalize (seq 0 spi). intros ls. induction ls as [|i ls IH']; cbn [map filter fst]; [destruct (l0 =? l)%nat; reflexivity|]. rewrite IH'. destruct (l0 =? l)%nat; reflexivity. }
            rewrite Hf. clear Hf; destruct (Nat.eqb_spec l0 l) as [Heq|Hne]; [subst l0|].
            + destruct (Nat.leb_spec (S l) l); [lia|]. cbn [andb]. rewrite app_nil_r. destruct (Nat.leb_spec l l), (Nat.ltb_spec l (l + S k)); try lia. reflexivity.
            + destruct (Nat.leb_spec (S l0) l), (Nat.leb_spec l0 l), (Nat.ltb_spec l (S l0 + k)), (Nat.ltb_spec l (l0 + S k)); cbn [andb app]; try lia; reflexivity. }
        rewrite Hone. destruct (Nat.leb_spec 0 l), (Nat.ltb_spec l (0 + li)); try lia. reflexivity.
    + rewrite Hlen in E2. exact E2.
Qed.
