(** * TreeModel: a move tree as text, src/backgammon/backgammon_logic.rs:21-26, 35-52 (BL).
    Texts are lists of bytes; the box-drawing characters take three bytes each. *)
From Verif Require Export ShowModel.
Local Open Scope Z_scope.

(** BL:38-39 *)
Definition node_prefix (last : bool) : text := if last then txt "└── " else txt "├── ".
Definition child_prefix (last : bool) : text := if last then txt "    " else txt "│   ".
(** BL:37-51 *)
Fixpoint format_tree (n : anode) (prefix : text) (last : bool) : text :=
  match n with
  | ANode v ch =>
    (prefix ++ node_prefix last ++ show_pair v ++ [NL]) ++
    (fix go (l : list anode) : text :=
       match l with
       | [] => []
       | c :: l' => format_tree c (prefix ++ child_prefix last) (match l' with [] => true | _ => false end) ++ go l'
       end) ch
  end.
(** BL:21-26 *)
Definition display_tree (n : anode) : text := format_tree n [] true.
