(** * Witness: concrete parameters for the runs shown beside the theorems. *)
From Verif Require Import Base F32 Tensor RoundFacts GameModel McModel AlphaModel AlphaSpec SampleModel SampleFacts SelfModel SelfSpec.
From Coq Require Import Permutation.

Definition tsum0 (l : list f32) : f32 := fold_right fadd f0 l.
Lemma tsum0_ok : tsum_ok tsum0.
Proof.
  intros l. induction l as [|x l IH]; [constructor|]. apply (sums_add [x] l); [reflexivity|constructor|exact IH].
Qed.
Definition dir0 (k : nat) (a : f32) (r : rng) : list f32 * rng := (repeat f0 k, r).
Lemma dir0_len k a r : length (fst (dir0 k a r)) = k.
Proof. apply repeat_length. Qed.
(** the sampler that always returns zero, which selects the first entry of non-zero weight *)
Definition unif0 (t : f64) (r : rng) : f64 * rng := (d0, r).
Lemma unif0_ok : unif_ok unif0.
Proof. intros t r H _. split; [reflexivity|exact H]. Qed.
(** temperature 1 and temperature 1/2 *)
Definition pow1 (x : f32) : f32 := x.
Definition pow2 (x : f32) : f32 := fmul x x.
Lemma pow1_ok : pow_ok pow1.
Proof. split; [reflexivity|auto]. Qed.
(** a network with constant policy [w] and value 0 *)
Definition net0 (w : list Z) : net :=
  mkNet (fun x => let k := hd 0%nat (shape x) in mkT [k; length w] (concat (repeat (map f32_of_Z w) k)))
        (fun x => let k := hd 0%nat (shape x) in mkT [k; 1%nat] (repeat f0 k)).
Lemma net0_ok G w : length w = asize G -> net_ok G (net0 w).
Proof.
  intros HL x k sh Hx. unfold net0. cbn [net_policy net_value shape data]. rewrite Hx. cbn [hd]. rewrite HL. split; [reflexivity|].
  split; [|split; [reflexivity|apply repeat_length]]. clear Hx. induction k as [|k IH]; [reflexivity|]. cbn [repeat concat]. rewrite app_length, map_length, HL, IH. lia.
Qed.
Definition cfg0 (it lim : nat) : mcfg := mkCfg it f1 lim f1 f0.
Definition hash0 {A} (j : nat) (l : list A) : list A := l.
Definition order0 (j n : nat) : list nat := seq 0 n.
Definition rng0 : rng := mkRng (fun _ => 0%N) 0.
