(** * SampleModel: drawing an index from a weight vector.
    src/alphazero/alphazero.rs:129-137 (weighted_select_tensor_idx) with the crate rand 0.8
    ([WeightedIndex::new], [WeightedIndex::sample]) as far as the program uses it.

    Parameter: [unif t r] is [Uniform::new(0, t).sample(rng)].  The properties assume of it
    only [0 <= x < t].  Simplification: the binary search of [sample] is a linear search for
    the first cumulative weight above the drawn number; the cumulative weights are in
    ascending order, so both find the same place. *)
From Verif Require Export Base F32.

Definition d0 : f64 := f64_of_Z 0.

(** the loop of [WeightedIndex::new]: [total] so far, the weights that follow; the result
    is the list of totals before each following weight, and the final total *)
Fixpoint cumulate (total : f64) (ws : list f64) : option (list f64 * f64) :=
  match ws with
  | [] => Some ([], total)
  | w :: ws' =>
    if SFleb d0 w then
      match cumulate (dadd total w) ws' with
      | Some (cs, t) => Some (total :: cs, t)
      | None => None
      end
    else None
  end.
Definition is_finite (x : spec_float) : bool :=
  match x with S754_zero _ | S754_finite _ _ _ => true | _ => false end.
(** [WeightedIndex::new(ws).unwrap()]: no item, a weight that is not [>= 0], and a zero
    total are errors; [Uniform::new(0, total)] asserts a finite range *)
Definition weighted_new (ws : list f64) : res (list f64 * f64) :=
  match ws with
  | [] => Panic PUnwrap
  | w :: ws' =>
    if SFleb d0 w then
      match cumulate w ws' with
      | None => Panic PUnwrap
      | Some (cs, t) =>
        if SFeqb t d0 then Panic PUnwrap
        else if is_finite t then Ok (cs, t) else Panic PAssert
      end
    else Panic PUnwrap
  end.
(** [WeightedIndex::sample] *)
Fixpoint weighted_search (cs : list f64) (x : f64) : nat :=
  match cs with
  | [] => 0%nat
  | c :: cs' => if SFleb c x then S (weighted_search cs' x) else 0%nat
  end.

Section Sample.
  Variable unif : f64 -> rng -> f64 * rng.
  (** alphazero.rs:129-137; [pi.iter::<f64>()] widens each entry *)
  Definition weighted_select_tensor_idx (pi : list f32) (r : rng) : res (nat * rng) :=
    '(cs, t) <- weighted_new (map f64_of_f32 pi) ;;
    let (x, r') := unif t r in
    Ok (weighted_search cs x, r').
End Sample.
(** what is assumed of the uniform sampler *)
Definition unif_ok (unif : f64 -> rng -> f64 * rng) : Prop :=
  forall t r, SFltb d0 t = true -> is_finite t = true ->
    SFleb d0 (fst (unif t r)) = true /\ SFltb (fst (unif t r)) t = true.
(** [x] is a sum of the numbers of [l], taken in any order and with any bracketing, each
    addition rounded to f32 *)
From Coq Require Import Permutation.
Inductive sums : list f32 -> f32 -> Prop :=
| sums_nil : sums [] f0
| sums_one x : sums [x] x
| sums_add a b l x y : Permutation (a ++ b) l -> sums a x -> sums b y -> sums l (fadd x y).
(** what is assumed of libtorch's [sum] *)
Definition tsum_ok (tsum : list f32 -> f32) : Prop := forall l, sums l (tsum l).
