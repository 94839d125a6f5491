(** * Tensor: dense tensors as shape + row-major data.
    These are the libtorch operations (crate tch) the program uses on values whose
    contents matter to the properties; they model no function of /repo themselves.
    Simplifications: no devices, no dtypes (integers that are exactly representable in
    every dtype involved stay integers; [stack] promotes i8 to float, which is exact);
    a shape error is a panic, as tch's non-fallible wrappers do. *)
From Verif Require Export Base.
From Coq Require Import Arith.

Record tensor (A : Type) := mkT { shape : list nat; data : list A }.
Arguments mkT {A}. Arguments shape {A}. Arguments data {A}.

Definition numel (sh : list nat) : nat := fold_right Nat.mul 1%nat sh.
(** all multi-indices of a shape, last index fastest *)
Fixpoint indices (sh : list nat) : list (list nat) :=
  match sh with
  | [] => [[]]
  | n :: sh' => flat_map (fun i => map (cons i) (indices sh')) (seq 0 n)
  end.
(** row-major offset *)
Fixpoint ravel (sh idx : list nat) : nat :=
  match sh, idx with
  | _ :: sh', i :: idx' => (i * numel sh' + ravel sh' idx')%nat
  | _, _ => 0%nat
  end.
Definition get {A} (dflt : A) (t : tensor A) (idx : list nat) : A :=
  nth (ravel (shape t) idx) (data t) dflt.

(** [Tensor::from_slice] *)
Definition from_slice {A} (l : list A) : tensor A := mkT [length l] l.
(** [Tensor::full(n, v)] *)
Definition full {A} (n : nat) (v : A) : tensor A := mkT [n] (repeat v n).
(** [t.view(sh)] *)
Definition view_as {A} (sh : list nat) (t : tensor A) : res (tensor A) :=
  if (numel sh =? numel (shape t))%nat then Ok (mkT sh (data t)) else Panic PExplicit.
Fixpoint shape_eqb (a b : list nat) : bool :=
  match a, b with
  | [], [] => true
  | x :: a', y :: b' => (x =? y)%nat && shape_eqb a' b'
  | _, _ => false
  end.
(** [Tensor::cat(ts, 0)]: concatenation along the first dimension *)
Definition cat0 {A} (ts : list (tensor A)) : res (tensor A) :=
  match ts with
  | [] => Panic PExplicit
  | t :: _ =>
    if forallb (fun u => shape_eqb (tl (shape u)) (tl (shape t)) && negb (length (shape u) =? 0)%nat) ts
    then Ok (mkT (fold_right Nat.add 0%nat (map (fun u => hd 0%nat (shape u)) ts) :: tl (shape t))
                 (concat (map data ts)))
    else Panic PExplicit
  end.
Definition insert_at {A} (k : nat) (x : A) (l : list A) : list A := firstn k l ++ x :: skipn k l.
Definition remove_at {A} (k : nat) (l : list A) : list A := firstn k l ++ skipn (S k) l.
(** [Tensor::stack(ts, k)] *)
Definition stack {A} (dflt : A) (k : nat) (ts : list (tensor A)) : res (tensor A) :=
  match ts with
  | [] => Panic PExplicit
  | t :: _ =>
    if forallb (fun u => shape_eqb (shape u) (shape t)) ts && (k <=? length (shape t))%nat then
      let sh := insert_at k (length ts) (shape t) in
      Ok (mkT sh (map (fun idx => get dflt (nth (nth k idx 0%nat) ts t) (remove_at k idx)) (indices sh)))
    else Panic PExplicit
  end.
(** [t.permute(p)]: dimension k of the result is dimension p[k] of [t] *)
Fixpoint position (x : nat) (l : list nat) : nat :=
  match l with [] => 0%nat | y :: l' => if (y =? x)%nat then 0%nat else S (position x l') end.
Definition permute {A} (dflt : A) (p : list nat) (t : tensor A) : res (tensor A) :=
  if (length p =? length (shape t))%nat && forallb (fun k => existsb (Nat.eqb k) p) (seq 0 (length p)) then
    let sh := map (fun k => nth k (shape t) 0%nat) p in
    let back idx := map (fun d => nth (position d p) idx 0%nat) (seq 0 (length p)) in
    Ok (mkT sh (map (fun idx => get dflt t (back idx)) (indices sh)))
  else Panic PExplicit.
(** [t.unsqueeze(0)], [t.squeeze()], [t.eq(v)] *)
Definition unsqueeze0 {A} (t : tensor A) : tensor A := mkT (1%nat :: shape t) (data t).
Definition squeeze {A} (t : tensor A) : tensor A :=
  mkT (filter (fun n => negb (n =? 1)%nat) (shape t)) (data t).
Definition eq_scalar (v : Z) (t : tensor Z) : tensor Z :=
  mkT (shape t) (map (fun x => if x =? v then 1 else 0) (data t)).
(** [t.get(i)] and C++ [t[i]]: slice [i] of the first dimension (negative indices are not used) *)
Definition select0 {A} (t : tensor A) (i : nat) : res (tensor A) :=
  match shape t with
  | n :: sh => if (i <? n)%nat then Ok (mkT sh (firstn (numel sh) (skipn (i * numel sh) (data t))))
               else Panic PIndex
  | [] => Panic PIndex
  end.
(** [t.item()]: only a tensor with a single element can be converted *)
Definition item {A} (t : tensor A) : res A := match data t with [x] => Ok x | _ => Panic PExplicit end.
(** [t.double_value(&idx)]: index once per entry of [idx], then [item] *)
Fixpoint double_value {A} (t : tensor A) (idx : list nat) : res A :=
  match idx with
  | [] => item t
  | i :: idx' => u <- select0 t i ;; double_value u idx'
  end.
(** [t.squeeze_dim(k)] *)
Definition squeeze_dim {A} (k : nat) (t : tensor A) : tensor A :=
  if (nth k (shape t) 0 =? 1)%nat then mkT (remove_at k (shape t)) (data t) else t.
(** [t.index_put_(&[Some(ix)], vals, false)] on one dimension: positions out of range panic.
    Negative positions, which libtorch counts from the end, do not occur.  For repeated
    positions libtorch leaves the winner open; here the last one wins. *)
Definition put1 {A} (l : list A) (ix : list Z) (vals : list A) : res (list A) :=
  mfold (fun acc cv => upd acc (fst cv) (snd cv)) (combine ix vals) l.
(** the same on two dimensions *)
Definition put2 {A} (m : list (list A)) (ix : list (Z * Z)) (vals : list A) : res (list (list A)) :=
  mfold (fun acc cv => row <- idx acc (fst (fst cv)) ;;
                       row' <- upd row (snd (fst cv)) (snd cv) ;;
                       upd acc (fst (fst cv)) row') (combine ix vals) m.
(** the rows of a two-dimensional tensor *)
Definition rows {A} (t : tensor A) : list (list A) :=
  match shape t with
  | [n; k] => map (fun i => firstn k (skipn (i * k) (data t))) (seq 0 n)
  | _ => []
  end.
