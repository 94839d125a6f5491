(** * TreeSpec: branches of a move tree, first occurrences. *)
From Coq Require Import Sorted.
From Verif Require Export BgSpec TreeModel.
Local Open Scope Z_scope.

(** the branches of a tree, from the root to a leaf, from left to right *)
Inductive branches : anode -> list actions -> Prop :=
| branches_leaf v : branches (ANode v []) [[v]]
| branches_node v ch qs : ch <> [] -> Forall2 branches ch qs -> branches (ANode v ch) (map (cons v) (concat qs)).
(** [q] is one of them *)
Inductive branch : anode -> actions -> Prop :=
| branch_leaf v : branch (ANode v []) [v]
| branch_step v ch c q : In c ch -> branch c q -> branch (ANode v ch) (v :: q).

(** [l'] is what is left of [l] if an element is kept just when [f] had none of the earlier
    elements' values there *)
Definition firsts {A B} (f : A -> B) (l l' : list A) : Prop :=
  exists ks, StronglySorted lt ks /\ Forall2 (fun k x => nth_error l k = Some x) ks l'
    /\ forall k x, nth_error l k = Some x -> (In k ks <-> forall j y, (j < k)%nat -> nth_error l j = Some y -> f y <> f x).

(** the values of a tree are pairs of i8 *)
Inductive typed_tree : anode -> Prop :=
| typed_node v ch : -128 <= fst v <= 127 -> -128 <= snd v <= 127 -> Forall typed_tree ch -> typed_tree (ANode v ch).

(** the nodes of a tree in the order in which they are printed: whether each node above it and the
    node itself is the last child, and the step *)
Fixpoint rows (above : list bool) (last : bool) (n : anode) : list (list bool * bool * (Z * Z)) :=
  match n with
  | ANode v ch =>
    (above, last, v) ::
    (fix go (l : list anode) : list (list bool * bool * (Z * Z)) :=
       match l with
       | [] => []
       | c :: l' => rows (above ++ [last]) (match l' with [] => true | _ => false end) c ++ go l'
       end) ch
  end.
(** such a node as a line of text: a bar below each node above that has further siblings *)
Definition row_line (x : list bool * bool * (Z * Z)) : text :=
  let '(above, last, v) := x in
  concat (map (fun b : bool => if b then txt "    " else txt "│   ") above) ++ (if last then txt "└── " else txt "├── ") ++ show_pair v ++ [NL].
