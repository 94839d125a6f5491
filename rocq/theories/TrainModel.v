(** * TrainModel: training, training data and the learning loop.
    src/alphazero/alphazero.rs:66-71, 149-200, 202-261 (AZ) and
    src/alphazero/alpha_parallel.rs:17-99 (AP), src/alphazero/alpha_no_parallel.rs:8-30.

    Parameters: [optimise] is one optimiser step, from the forward pass to [optimizer.step()]
    (AZ:238-260), on the tensors of a batch: any function, which may panic (the assertions on
    NaN).  Devices, progress bars and printing are left out; a directory whose creation fails
    ([let _ = fs::create_dir]) makes the following save panic because it does not exist. *)
From Verif Require Export Base F32 Tensor VersusModel SelfModel.

(** AZ:66-71, with tensors of any shape *)
Record mem := mkMem { m_outcome : Z; m_ps : tensor f32; m_state : tensor Z }.
(** the fragments made by self-play *)
Definition mem_of (f : frag) : mem := mkMem (fr_outcome f) (mkT [length (fr_ps f)] (fr_ps f)) (fr_state f).

(** the crate rand 0.8, [SliceRandom::shuffle]:
    [for i in (1..len).rev() { swap(i, gen_index(i + 1)) }] *)
Definition swap {A} (l : list A) (i j : nat) : list A :=
  match nth_error l i, nth_error l j with
  | Some x, Some y => set_nth (set_nth l i y) j x
  | _, _ => l
  end.
Fixpoint shuffle_from {A} (i : nat) (l : list A) (r : rng) : list A * rng :=
  match i with
  | O => (l, r)
  | S i' => let (j, r1) := gen_range 0 (Z.of_nat i) r in shuffle_from i' (swap l i (Z.to_nat j)) r1
  end.
Definition shuffle {A} (l : list A) (r : rng) : list A * rng := shuffle_from (length l - 1) l r.

(** [(i..len).step_by(step)]; [fuel] bounds the number of items *)
Fixpoint step_by_from (fuel : nat) (i step len : Z) : list Z :=
  match fuel with
  | O => []
  | S fuel' => if i <? len then i :: step_by_from fuel' (i + step) step len else []
  end.
(** [(0..len).step_by(step)]: a step of zero panics *)
Definition step_by (len step : Z) : res (list Z) :=
  if step =? 0 then Panic PAssert else Ok (step_by_from (Z.to_nat len) 0 step len).

Section Train.
  Variable pr : profile.
  (** the model with its optimiser *)
  Variable W : Type.
  Variable optimise : W -> tensor Z -> tensor f32 -> tensor Z -> res W.

  (** AZ:207-236: the tensors of a batch: states, policies, outcomes *)
  Definition batch_tensors (sample : list mem) : res (tensor Z * tensor f32 * tensor Z) :=
    let outcomes := map m_outcome sample in
    let outcome_tensor := mkT [length outcomes; 1%nat] outcomes in
    ps_tensor <- stack f0 0 (map m_ps sample) ;;
    states <- stack 0 0 (map m_state sample) ;;
    Ok (squeeze_dim 1 states, ps_tensor, outcome_tensor).
  (** AZ:205-260, one batch *)
  Definition train_batch (memory : list mem) (bs : Z) (w : W) (i : Z) : res W :=
    hi <- usize pr (i + bs) ;;
    sample <- slice memory i (Z.min hi (Z.of_nat (length memory))) ;;
    '(x, p, o) <- batch_tensors sample ;;
    optimise w x p o.
  (** AZ:202-261; the memory stays shuffled *)
  Definition train (bs : Z) (w : W) (memory : list mem) (r : rng) : res (W * list mem * rng) :=
    let (shuffled, r1) := shuffle memory r in
    starts <- step_by (Z.of_nat (length shuffled)) bs ;;
    w' <- mfold (train_batch shuffled bs) starts w ;;
    Ok (w', shuffled, r1).
End Train.

(** AZ:162-175: the three files *)
Record saved := mkSaved { sv_ps : tensor f32; sv_states : tensor Z; sv_outcomes : tensor Z }.
(** AZ:149-176; [exists_] is whether the directory exists *)
Definition save_training_data (exists_ : bool) (data : list mem) : res saved :=
  if exists_ then
    ps <- stack f0 0 (map m_ps data) ;;
    states <- cat0 (map m_state data) ;;
    Ok (mkSaved ps states (from_slice (map m_outcome data)))
  else Panic PExplicit.
(** AZ:184-200; [files] is what the directory holds ([None]: a file is missing) *)
Definition size0 {A} (t : tensor A) : res nat := match shape t with n :: _ => Ok n | [] => Panic PIndex end.
Definition load_training_data (files : option saved) : res (list mem) :=
  match files with
  | None => Panic PUnwrap
  | Some f =>
    let ps := squeeze (sv_ps f) in
    let states := squeeze (sv_states f) in
    let outcomes := squeeze (sv_outcomes f) in
    data_size <- size0 ps ;;
    mmap (fun i =>
      o <- select0 outcomes i ;; ov <- item o ;;
      p <- select0 ps i ;;
      s <- select0 states i ;;
      Ok (mkMem (wrap_i8 ov) (squeeze p) s)) (seq 0 data_size)
  end.

Section Learn.
  Variable pr : profile.
  Variable W : Type.
  Variable optimise : W -> tensor Z -> tensor f32 -> tensor Z -> res W.
  Variable self_play : W -> rng -> res (list frag * rng).       (** AP:52 *)
  Variable mkdir : nat -> nat -> bool.                           (** AP:61: whether sp-i of lrn-l exists then *)
  Variable no_nan : W -> bool.                                   (** AP:83 *)
  Variable gate : W -> nat -> rng -> res (rng).                  (** AP:85-96: saving the model and the match *)
  (** AP:48-68: the self-play iterations of learn iteration [l]; the state is the memory, the
      data saved so far (learn iteration, self-play iteration, files) and the random stream *)
  Definition learn_self_play (l : nat) (w : W) (acc : list mem * list (nat * nat * saved) * rng) (i : nat) : res (list mem * list (nat * nat * saved) * rng) :=
    let '(memory, files, r) := acc in
    '(out, r1) <- self_play w r ;;
    let memory' := memory ++ map mem_of out in
    s <- save_training_data (mkdir l i) memory' ;;
    Ok (memory', files ++ [(l, i, s)], r1).
  (** AP:78-81: one epoch *)
  Definition learn_epoch (bs : Z) (acc : W * list mem * rng) (e : nat) : res (W * list mem * rng) :=
    let '(w, memory, r) := acc in train pr W optimise bs w memory r.
  (** AP:42-98: one learn iteration *)
  Definition learn_iteration (sp_iterations epochs : nat) (bs : Z) (acc : W * list (nat * nat * saved) * rng) (l : nat) : res (W * list (nat * nat * saved) * rng) :=
    let '(w, files, r) := acc in
    '(memory, files1, r1) <- mfold (learn_self_play l w) (seq 0 sp_iterations) ([], files, r) ;;
    '(w2, _, r2) <- mfold (learn_epoch bs) (seq 0 epochs) (w, memory, r1) ;;
    if no_nan w2 then r3 <- gate w2 l r2 ;; Ok (w2, files1, r3) else Panic PAssert.
  (** AP:17-99 *)
  Definition learn_parallel (iterations sp_iterations epochs : nat) (bs : Z) (w : W) (r : rng) : res (W * list (nat * nat * saved) * rng) :=
    mfold (learn_iteration sp_iterations epochs bs) (seq 0 iterations) (w, [], r).

  (** alpha_no_parallel.rs:10-13 *)
  Definition serial_self_play (w : W) (acc : list mem * rng) (i : nat) : res (list mem * rng) :=
    let '(memory, r) := acc in
    '(out, r1) <- self_play w r ;;
    Ok (memory ++ map mem_of out, r1).
  (** alpha_no_parallel.rs:9-29: one iteration; the second component lists the models saved as
      [model_{i}.ot] (a failing save is only reported) *)
  Definition serial_iteration (sp_iterations epochs : nat) (bs : Z) (acc : W * list (nat * W) * rng) (i : nat) : res (W * list (nat * W) * rng) :=
    let '(w, models, r) := acc in
    '(memory, r1) <- mfold (serial_self_play w) (seq 0 sp_iterations) ([], r) ;;
    '(w2, _, r2) <- mfold (learn_epoch bs) (seq 0 epochs) (w, memory, r1) ;;
    Ok (w2, models ++ [(i, w2)], r2).
  (** alpha_no_parallel.rs:8-30 *)
  Definition learn_serial (iterations sp_iterations epochs : nat) (bs : Z) (w : W) (r : rng) : res (W * list (nat * W) * rng) :=
    mfold (serial_iteration sp_iterations epochs bs) (seq 0 iterations) (w, [], r).
End Learn.
