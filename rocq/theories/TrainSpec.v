(** * TrainSpec: what training and its data should be. *)
From Verif Require Import Base F32 Tensor SelfModel TrainModel.

(** a tensor whose data fit its shape *)
Definition full_tensor {A} (sh : list nat) (t : tensor A) : Prop := shape t = sh /\ length (data t) = numel sh.
(** fragments of one kind: policies of length [a] and positions of shape [sh] *)
Definition uniform (a : nat) (sh : list nat) (ms : list mem) : Prop :=
  Forall (fun m => full_tensor [a] (m_ps m) /\ full_tensor sh (m_state m)) ms.
(** how a list is cut into batches of [bs]: all full but the last, none empty *)
Inductive cut {A} (bs : nat) : list (list A) -> Prop :=
| cut_nil : cut bs []
| cut_last b : b <> [] -> (length b <= bs)%nat -> cut bs [b]
| cut_full b bb : length b = bs -> bb <> [] -> cut bs bb -> cut bs (b :: bb).
(** the position without the leading dimension of a batch *)
Definition drop_unit (m : mem) : mem := mkMem (m_outcome m) (m_ps m) (mkT (tl (shape (m_state m))) (data (m_state m))).

(** [passes n w w']: from the weights [w], [n] passes over the fragments [ms] lead to [w']; each
    pass does one optimiser step per batch, on batches that hold every fragment exactly once *)
Inductive passes {W : Type} (optimise : W -> tensor Z -> tensor f32 -> tensor Z -> res W) (bs : nat) (ms : list mem) : nat -> W -> W -> Prop :=
| pass_none w : passes optimise bs ms 0 w w
| pass_more n w w1 w2 batches : passes optimise bs ms n w w1 -> cut bs batches -> Permutation.Permutation (concat batches) ms ->
    mfold (fun w b => '(x, p, o) <- batch_tensors b ;; optimise w x p o) batches w1 = Ok w2 -> passes optimise bs ms (S n) w w2.
(** one round of learning: [n] self-plays with the weights [w], then [epochs] passes over all their
    fragments lead to [w'] *)
Definition learned {W : Type} optimise (self_play : W -> rng -> res (list frag * rng)) (n epochs : nat) (bs : nat) (w w' : W) : Prop :=
  exists R, length R = n /\ Forall (fun out => exists ra rb, self_play w ra = Ok (out, rb)) R
    /\ (Z.of_nat (length (concat R)) < 2 ^ 63 -> passes optimise bs (map mem_of (concat R)) epochs w w').
