(** * NetSpec: the architecture of the network written out, for C76; models no function of /repo. *)
From Coq Require Import String NArith.
From Verif Require Import Base NetModel.
Local Open Scope string_scope.

(** one layer after the other: [f k l] is what the [k]-th layer [l] does *)
Inductive chain {T : Type} (f : nat -> layer -> T -> res T) : nat -> list layer -> T -> T -> Prop :=
| chain_end k x : chain f k [] x x
| chain_layer k l ls x y z : f k l x = Ok y -> chain f (S k) ls y z -> chain f k (l :: ls) x z.

(** shapes and kinds of the variables: a 3x3 convolution from [i] to [o] channels, a normalisation
    of [n] channels, a fully connected layer from [i] to [o] numbers *)
Definition conv_spec (i o : nat) : list (string * list nat) := [("bias", [o]); ("weight", [o; i; 3; 3]%nat)].
Definition norm_spec (n : nat) : list (string * list nat) := [("weight", [n]); ("bias", [n]); ("running_mean", [n]); ("running_var", [n])].
Definition linear_spec (i o : nat) : list (string * list nat) := [("bias", [o]); ("weight", [o; i])].
Fixpoint copies {A} (n : nat) (l : list A) : list A := match n with O => [] | S n' => l ++ copies n' l end.

(** how many numbers a tensor of that shape holds, and how many numbers training adjusts *)
Definition volume (sh : list nat) : N := fold_right (fun d a => (N.of_nat d * a)%N) 1%N sh.
Definition adjusted (vars : list (string * list nat * bool)) : N := fold_right (fun (v : string * list nat * bool) a => ((if snd v then volume (snd (fst v)) else 0) + a)%N) 0%N vars.
