(** * Prop_Train: C48-C50, C63 — training batches, training data, the learning loop. *)
From Coq Require Import Permutation.
From Verif Require Import Base F32 Tensor RoundFacts TttModel BgModel BgTensor GameModel McModel McSpec GameFacts AlphaModel AlphaSpec AlphaInst SampleModel VisitSpec
  VersusModel SelfModel SelfSpec SelfApi TrainModel TrainSpec TrainApi TrainLoop Witness.

(** five fragments of a game with two actions and positions of shape [1; 2] *)
Definition toy (k : Z) : mem := mkMem k (mkT [2%nat] [f32_of_Z k; f1]) (mkT [1; 2]%nat [k; 7]).
Definition toys : list mem := map toy [1; -1; 0; 1; 0].
Definition toy_frag (k : Z) : frag := mkFrag k [f32_of_Z k; f1] (mkT [1; 2]%nat [k; 7]).

(** C48.  A call of [train] shuffles the memory, cuts it into batches, all full but the last, and
    does one optimiser step on the tensors of each batch, in order: every fragment is used exactly
    once.  Holds for every optimiser, batch size, memory and random stream. *)
Theorem C48_batches : forall pr W optimise bs (w : W) memory r, 1 <= bs < 2 ^ 64 -> Z.of_nat (length memory) < 2 ^ 63 ->
  exists batches r', cut (Z.to_nat bs) batches /\ Permutation (concat batches) memory
    /\ train pr W optimise bs w memory r
       = (w' <- mfold (fun w b => '(x, p, o) <- batch_tensors b ;; optimise w x p o) batches w ;; Ok (w', concat batches, r')).
Proof. exact C48_batches_lemma. Qed.
Print Assumptions C48_batches.
(** C48.  What [cut] means: no batch is empty or too large, all but the last are full, and so the
    number of batches is the number of fragments over the batch size, rounded up. *)
Theorem C48_number : forall (A : Type) bs (batches : list (list A)), (0 < bs)%nat -> cut bs batches ->
  Forall (fun b => (0 < length b <= bs)%nat) batches
  /\ (batches <> [] -> ((length batches - 1) * bs < length (concat batches) <= length batches * bs)%nat)
  /\ forall i, (S i < length batches)%nat -> length (nth i batches []) = bs.
Proof. exact C48_number_lemma. Qed.
Print Assumptions C48_number.
(** C48.  A batch size of zero panics. *)
Theorem C48_zero : forall pr W optimise (w : W) memory r, train pr W optimise 0 w memory r = Panic PAssert.
Proof. exact C48_zero_lemma. Qed.
Print Assumptions C48_zero.
(** C48.  The tensors of a batch: row [i] of each belongs to fragment [i]. *)
Theorem C48_tensors : forall a sh sample, sample <> [] -> uniform a sh sample -> sh <> [] ->
  let n := length sample in
  batch_tensors sample = Ok (mkT (n :: (if (hd 0 sh =? 1)%nat then tl sh else sh)) (concat (map (fun m => data (m_state m)) sample)),
                             mkT [n; a] (concat (map (fun m => data (m_ps m)) sample)),
                             mkT [n; 1%nat] (map m_outcome sample)).
Proof. exact C48_tensors_lemma. Qed.
Print Assumptions C48_tensors.
(** five fragments in batches of two: the optimiser (here: it records the batches) sees 2, 2 and 1 *)
Example C48_run : match train Debug (list (list Z)) (fun w x p o => Ok (w ++ [data o])) 2 [] toys (mkRng N.of_nat 0) with
  | Ok (w, m, _) => w = [[0; 1]; [0; -1]; [1]] /\ map m_outcome m = concat w
  | Panic _ => False end.
Proof. vm_compute. split; reflexivity. Qed.
Example C48_uniform : uniform 2 [1; 2]%nat toys.
Proof. repeat constructor. Qed.

(** C49.  Two or more fragments: what is saved is loaded unchanged and in order, but for the
    leading unit dimension of the positions. *)
Theorem C49_round_trip : forall a sh ms, (2 <= length ms)%nat -> uniform a (1%nat :: sh) ms -> a <> 1%nat -> Forall (fun d => d <> 1%nat) sh ->
  Forall (fun m => -128 <= m_outcome m <= 127) ms ->
  exists s, save_training_data true ms = Ok s /\ load_training_data (Some s) = Ok (map drop_unit ms).
Proof. exact C49_round_trip_lemma. Qed.
Print Assumptions C49_round_trip.
(** C49.  The lost dimension does not matter to training. *)
Theorem C49_same_batches : forall a c sh sample, sample <> [] -> uniform a (1%nat :: c :: sh) sample -> c <> 1%nat ->
  batch_tensors (map drop_unit sample) = batch_tensors sample.
Proof. exact C49_same_batches_lemma. Qed.
Print Assumptions C49_same_batches.
(** C49, violation.  A single fragment is saved, but loading it panics. *)
Theorem C49_single : forall a sh m, uniform a (1%nat :: sh) [m] -> (2 <= a)%nat ->
  exists s, save_training_data true [m] = Ok s /\ exists p, load_training_data (Some s) = Panic p.
Proof. exact C49_single_lemma. Qed.
Print Assumptions C49_single.
(** C49.  No fragment: saving panics. *)
Theorem C49_empty : forall e, exists p, save_training_data e [] = Panic p.
Proof. exact C49_empty_lemma. Qed.
Print Assumptions C49_empty.
(** C49.  The fragments of self-play are of one kind with small outcomes, as the theorems ask. *)
Theorem C49_self_play : forall G I sh, play_game (G := G) I -> (forall s x, g_tensor G s = Ok x -> full_tensor sh x) ->
  forall tsum, tsum_ok tsum -> forall dirichlet, (forall k a rr, length (fst (dirichlet k a rr)) = k) ->
  forall unif, unif_ok unif -> forall tpow, pow_ok tpow -> forall nt, net_ok G nt ->
  forall cfg, SFltb f0 (dir_alpha cfg) = true -> (0 < iterations cfg)%nat ->
  forall hash, (forall j (m : list (nat * St G)), Permutation (hash j m) m) ->
  forall order, (forall j n, Permutation (order j n) (seq 0 n)) ->
  forall n fuel r out r', 1 + Z.of_nat (iterations cfg) * Z.of_nat (S n) <= 2 ^ 24 -> (sim_limit cfg < fuel)%nat ->
  self_play_parallel tsum dirichlet unif tpow nt cfg hash order fuel n r = Ok (out, r') ->
  uniform (asize G) sh (map mem_of out) /\ Forall (fun m => -128 <= m_outcome m <= 127) (map mem_of out).
Proof. exact C49_self_play_lemma. Qed.
Print Assumptions C49_self_play.
Example C49_games : (forall pr s x, g_tensor (bg_game pr) s = Ok x -> full_tensor [1; 6; 4; 6]%nat x)
  /\ (forall pr s x, g_tensor (ttt_game pr) s = Ok x -> full_tensor [1; 3; 3; 3]%nat x)
  /\ (forall pr, asize (bg_game pr) <> 1%nat /\ asize (ttt_game pr) <> 1%nat) /\ Forall (fun d => d <> 1%nat) [6; 4; 6]%nat /\ Forall (fun d => d <> 1%nat) [3; 3; 3]%nat
  /\ exists x, g_tensor (ttt_game Debug) (g_new (ttt_game Debug)) = Ok x.
Proof.
  split; [intros pr; apply bg_tensor_full|]. split; [intros pr; apply ttt_tensor_full|]. split; [intros pr; split; [|discriminate]|].
  - intros H. apply (f_equal Z.of_nat) in H. vm_compute in H. discriminate H.
  - split; [repeat constructor; discriminate|]. split; [repeat constructor; discriminate|]. eexists. vm_compute. reflexivity.
Qed.
Example C49_run : match save_training_data true toys with Ok s => load_training_data (Some s) = Ok (map drop_unit toys) /\ shape (sv_states s) = [5; 2]%nat | Panic _ => False end.
Proof. vm_compute. split; reflexivity. Qed.
Example C49_one_run : match save_training_data true [toy 1] with Ok s => load_training_data (Some s) = Panic PIndex | Panic _ => False end.
Proof. vm_compute. reflexivity. Qed.

(** C50.  The data saved for self-play [i] of a learn iteration are those of self-plays [0..i]. *)
Theorem C50_cumulative : forall pr W optimise self_play mkdir no_nan gate iterations sp_iterations epochs bs w r w' files r',
  learn_parallel pr W optimise self_play mkdir no_nan gate iterations sp_iterations epochs bs w r = Ok (w', files, r') ->
  exists (R : nat -> list (list frag)) (S_ : nat -> nat -> saved),
    files = flat_map (fun l => map (fun i => (l, i, S_ l i)) (seq 0 sp_iterations)) (seq 0 iterations)
    /\ (forall l, (l < iterations)%nat -> length (R l) = sp_iterations
          /\ exists wl, Forall (fun out => exists ra rb, self_play wl ra = Ok (out, rb)) (R l))
    /\ forall l i, (l < iterations)%nat -> (i < sp_iterations)%nat ->
         save_training_data true (map mem_of (concat (firstn (S i) (R l)))) = Ok (S_ l i).
Proof. exact C50_cumulative_lemma. Qed.
Print Assumptions C50_cumulative.
(** C50.  So the files of a learn iteration with [n] self-plays together hold the fragments of
    self-play [i] exactly [n - i] times. *)
Theorem C50_multiplicity : forall a sh (R : list (list frag)) ss,
  length ss = length R -> (forall i s, nth_error ss i = Some s -> save_training_data true (map mem_of (concat (firstn (S i) R))) = Ok s) ->
  uniform a (1%nat :: sh) (map mem_of (concat R)) -> a <> 1%nat -> Forall (fun d => d <> 1%nat) sh ->
  Forall (fun f => -128 <= fr_outcome f <= 127) (concat R) -> (2 <= length (hd [] R))%nat ->
  exists loaded, mmap (fun s => load_training_data (Some s)) ss = Ok loaded
    /\ Permutation (concat loaded)
         (concat (map (fun i => concat (repeat (map (fun f => drop_unit (mem_of f)) (nth i R [])) (length R - i))) (seq 0 (length R)))).
Proof. exact C50_multiplicity_lemma. Qed.
Print Assumptions C50_multiplicity.
(** C50.  The same for a run of the learning loop with the real self-play, in any game with
    positions of shape [1 :: sh]. *)
Theorem C50_self_play : forall G I sh, play_game (G := G) I -> (forall s x, g_tensor G s = Ok x -> full_tensor (1%nat :: sh) x) ->
  asize G <> 1%nat -> Forall (fun d => d <> 1%nat) sh ->
  forall tsum, tsum_ok tsum -> forall dirichlet, (forall k a rr, length (fst (dirichlet k a rr)) = k) ->
  forall unif, unif_ok unif -> forall tpow, pow_ok tpow -> forall W (nets : W -> net), (forall w, net_ok G (nets w)) ->
  forall cfg, SFltb f0 (dir_alpha cfg) = true -> (0 < iterations cfg)%nat ->
  forall hash, (forall j (m : list (nat * St G)), Permutation (hash j m) m) ->
  forall order, (forall j n, Permutation (order j n) (seq 0 n)) ->
  forall n fuel, 1 + Z.of_nat (iterations cfg) * Z.of_nat (S n) <= 2 ^ 24 -> (sim_limit cfg < fuel)%nat ->
  forall pr optimise mkdir no_nan gate learn_iterations sp_iterations epochs bs w r w' files r',
  learn_parallel pr W optimise (fun w r => self_play_parallel tsum dirichlet unif tpow (nets w) cfg hash order fuel n r) mkdir no_nan gate
    learn_iterations sp_iterations epochs bs w r = Ok (w', files, r') ->
  exists R : nat -> list (list frag), forall l, (l < learn_iterations)%nat -> length (R l) = sp_iterations
    /\ ((2 <= length (hd [] (R l)))%nat -> exists loaded,
          mmap (fun f => load_training_data (Some (snd f))) (filter (fun f => (fst (fst f) =? l)%nat) files) = Ok loaded
          /\ Permutation (concat loaded)
               (concat (map (fun i => concat (repeat (map (fun f => drop_unit (mem_of f)) (nth i (R l) [])) (sp_iterations - i))) (seq 0 sp_iterations)))).
Proof. exact C50_self_play_lemma. Qed.
Print Assumptions C50_self_play.
(** two learn iterations of three self-plays with two fragments each: the first lrn directory
    holds 2 + 4 + 6 fragments *)
Example C50_run : match learn_parallel Debug nat (fun w x p o => Ok (S w)) (fun w r => Ok ([toy_frag (Z.of_nat w); toy_frag 1], r)) (fun _ _ => true) (fun _ => true) (fun w l r => Ok r)
    2 3 1 4 0%nat rng0 with
  | Ok (w, files, _) => w = 4%nat /\ map (fun f => (fst f, shape (sv_ps (snd f)))) files
      = [(0, 0, [2; 2]); (0, 1, [4; 2]); (0, 2, [6; 2]); (1, 0, [2; 2]); (1, 1, [4; 2]); (1, 2, [6; 2])]%nat
  | Panic _ => False end.
Proof. vm_compute. split; reflexivity. Qed.

(** C63.  The weights through [learn_parallel]: all self-plays of an iteration use the weights the
    iteration started with; [epochs] passes over all their fragments (each fragment once per pass)
    give the weights of the next iteration; those are checked for NaN, saved and sent to the match;
    the last ones are the result.  For every self-play, optimiser and gate. *)
Theorem C63_parallel : forall pr W optimise self_play mkdir no_nan gate iterations sp_iterations epochs bs w r w' files r', 1 <= bs < 2 ^ 64 ->
  learn_parallel pr W optimise self_play mkdir no_nan gate iterations sp_iterations epochs bs w r = Ok (w', files, r') ->
  exists ws : list W, length ws = S iterations /\ nth_error ws 0 = Some w /\ nth_error ws iterations = Some w'
    /\ forall l wl wl', (l < iterations)%nat -> nth_error ws l = Some wl -> nth_error ws (S l) = Some wl' ->
       learned optimise self_play sp_iterations epochs (Z.to_nat bs) wl wl'
       /\ no_nan wl' = true /\ exists ra rb, gate wl' l ra = Ok rb.
Proof. exact C63_parallel_lemma. Qed.
Print Assumptions C63_parallel.
(** C63.  The same for [learn]; the model saved as number [l] has the weights after iteration [l].
    (It neither checks for NaN nor plays a match.) *)
Theorem C63_serial : forall pr W optimise self_play iterations sp_iterations epochs bs w r w' models r', 1 <= bs < 2 ^ 64 ->
  learn_serial pr W optimise self_play iterations sp_iterations epochs bs w r = Ok (w', models, r') ->
  exists ws : list W, length ws = S iterations /\ nth_error ws 0 = Some w /\ nth_error ws iterations = Some w'
    /\ models = combine (seq 0 iterations) (tl ws)
    /\ forall l wl wl', (l < iterations)%nat -> nth_error ws l = Some wl -> nth_error ws (S l) = Some wl' ->
       learned optimise self_play sp_iterations epochs (Z.to_nat bs) wl wl'.
Proof. exact C63_serial_lemma. Qed.
Print Assumptions C63_serial.
Example C63_run : match learn_serial Debug nat (fun w x p o => Ok (S w)) (fun w r => Ok ([toy_frag (Z.of_nat w); toy_frag 1], r)) 2 3 2 4 0%nat rng0 with
  | Ok (w, models, _) => w = 8%nat /\ models = [(0, 4); (1, 8)]%nat
  | Panic _ => False end.
Proof. vm_compute. split; reflexivity. Qed.
