(** * FilesSpec: which directories hold training data. *)
From Coq Require Import DecimalString.
From Verif Require Import Base FilesModel.
Local Open Scope string_scope.

(** a name with the letters sp in it *)
Definition has_sp (name : string) : Prop := exists a b, name = a ++ "sp" ++ b.
(** [m] is the node at path [p] of [n] *)
Inductive at_path : node -> path -> node -> Prop :=
| at_here n : at_path n [] n
| at_below b es name m p x : In (name, m) es -> at_path m p x -> at_path (Dir b es) (name :: p) x.
(** the outermost entries whose names have sp in them *)
Definition outermost_sp (n : node) (p : path) : Prop :=
  exists q name m, p = (q ++ [name])%list /\ at_path n p m /\ has_sp name /\ Forall (fun x => ~ has_sp x) q.
(** names are unique within a directory *)
Inductive tree : node -> Prop :=
| tree_file p : tree (File p)
| tree_dir b es : NoDup (map fst es) -> Forall (fun e => tree (snd e)) es -> tree (Dir b es).
(** every directory can be listed *)
Inductive listable : node -> Prop :=
| list_file p : listable (File p)
| list_dir es : Forall (fun e => listable (snd e)) es -> listable (Dir true es).

(** the directories that the learning loop writes (src/alphazero/alpha_parallel.rs:18-61) *)
Definition dec (n : nat) : string := NilEmpty.string_of_uint (Nat.to_uint n).
Definition sp_node (s : saved) : node := Dir true [("ps.ot", File (Floats (sv_ps s))); ("states.ot", File (Ints (sv_states s))); ("outcomes.ot", File (Ints (sv_outcomes s)))].
Definition numbered {A} (prefix : string) (f : A -> node) (l : list A) : list (string * node) :=
  map (fun ix => (prefix ++ dec (fst ix), f (snd ix))) (combine (seq 0 (length l)) l).
Definition lrn_node (ss : list saved) : node := Dir true (numbered "sp-" sp_node ss).
Definition run_node (lrns : list (list saved)) : node := Dir true (numbered "lrn-" lrn_node lrns).
Definition data_node (runs : list (string * list (list saved))) : node := Dir true (map (fun run => ("run-" ++ fst run, run_node (snd run))) runs).
