(** * Prop_Tree: C78 — move trees and the public functions around them. *)
From Coq Require Import Permutation Sorted.
From Verif Require Import Base BaseFacts BgModel BgSpec BgWitness JsonModel ShowModel TreeModel TreeSpec TreeApi.
Local Open Scope Z_scope.

(** C78.  The sequences taken from a tree are its branches from left to right. *)
Theorem C78_sequences : forall n, branches n (extract_sequences_node n)
  /\ (forall qs, branches n qs -> qs = extract_sequences_node n) /\ (forall q, In q (extract_sequences_node n) <-> branch n q)
  /\ forall l, extract_sequences_list l = concat (map extract_sequences_node l).
Proof. exact C78_sequences_lemma. Qed.
Print Assumptions C78_sequences.
(** C78.  Of the sequences that lead to the same board the first is kept, in the given order; a
    panic occurs just if one of the sequences cannot be carried out. *)
Theorem C78_duplicates : forall pr b seqs p,
  ((exists out, remove_duplicate_states pr b seqs p = Ok out) <-> forall m, In m seqs -> exists b', get_next_state pr b m p = Ok b')
  /\ forall out, remove_duplicate_states pr b seqs p = Ok out -> firsts (fun m => get_next_state pr b m p) seqs out.
Proof. exact C78_duplicates_lemma. Qed.
Print Assumptions C78_duplicates.
(** C78.  Without a checker on the bar the branches of the trees of get_normal_moves are plays by the
    (loose) rules with any number of dice; every legal play is the beginning of one, and if no opposing
    checker is at home they are exactly the maximal legal plays. *)
Theorem C78_normal : forall pr moves b s, WF b -> Forall die moves -> bar (view b) s = 0 ->
  exists ts, get_normal_moves pr moves b (sign s) = Ok ts
  /\ (forall q, (exists t, In t ts /\ branch t q) -> exists ms, ms <> [] /\ q = map act_of ms /\ BgSpec.play (loose s) (stuck s) s moves (view b) ms)
  /\ (clear_home (view b) s -> forall q, (exists t, In t ts /\ branch t q) <-> exists ms, ms <> [] /\ q = map act_of ms /\ BgSpec.turn s moves (view b) ms)
  /\ (forall ms, ms <> [] -> BgSpec.play (legal s) (fun _ _ => True) s moves (view b) ms -> exists ms' t, In t ts /\ branch t (map act_of (ms ++ ms'))).
Proof. exact C78_normal_lemma. Qed.
Print Assumptions C78_normal.
(** C78.  The same for get_entry_moves if there is a checker on the bar. *)
Theorem C78_entry : forall pr moves b s, WF b -> Forall die moves -> 0 < bar (view b) s ->
  exists ts, get_entry_moves pr moves b (sign s) = Ok ts
  /\ (forall q, (exists t, In t ts /\ branch t q) -> exists ms, ms <> [] /\ q = map act_of ms /\ BgSpec.play (loose s) (stuck s) s moves (view b) ms)
  /\ (clear_home (view b) s -> forall q, (exists t, In t ts /\ branch t q) <-> exists ms, ms <> [] /\ q = map act_of ms /\ BgSpec.turn s moves (view b) ms)
  /\ (forall ms, ms <> [] -> BgSpec.play (legal s) (fun _ _ => True) s moves (view b) ms -> exists ms' t, In t ts /\ branch t (map act_of (ms ++ ms'))).
Proof. exact C78_entry_lemma. Qed.
Print Assumptions C78_entry.
(** C78.  Without a checker on the bar get_entry_moves panics as soon as an entry point is open (in a
    build with overflow checks), ... *)
Theorem C78_entry_no_bar : forall moves b s, WF b -> Forall die moves -> bar (view b) s = 0 ->
  ((exists d, In d moves /\ ~ blocked (view b) s (entry s d)) -> get_entry_moves Debug moves b (sign s) = Panic POverflow)
  /\ ((forall d, In d moves -> blocked (view b) s (entry s d)) -> forall pr, get_entry_moves pr moves b (sign s) = Ok []).
Proof. exact C78_entry_no_bar_lemma. Qed.
Print Assumptions C78_entry_no_bar.
(** ... and with one on the bar get_normal_moves offers moves that are not legal: both functions rely
    on their caller. *)
Theorem C78_normal_bar_refuted : forall pr, exists b s moves ts i j ch, WF b /\ Forall die moves /\ 0 < bar (view b) s /\ get_normal_moves pr moves b (sign s) = Ok ts
  /\ In (ANode (i, j) ch) ts /\ forall d, ~ legal s d (view b) (Move i j).
Proof. exact C78_normal_bar_refuted_lemma. Qed.
Print Assumptions C78_normal_bar_refuted.
(** C78.  is_collectible says when bearing off is allowed. *)
Theorem C78_collectible : forall b s, WF b -> (is_collectible b (sign s) = true <-> all_home (view b) s).
Proof. exact C78_collectible_lemma. Qed.
Print Assumptions C78_collectible.
(** C78.  A position made from fields has no roll, and asking for its moves panics. *)
Theorem C78_fields : forall b p sp, bgboard (init_with_fields b p sp) = b /\ player (init_with_fields b p sp) = p /\ second (init_with_fields b p sp) = sp
  /\ bgid (init_with_fields b p sp) = 0 /\ forall pr, bg_valid_moves pr (init_with_fields b p sp) = Panic PAssert.
Proof. exact C78_fields_lemma. Qed.
Print Assumptions C78_fields.
(** C78.  Different trees are printed differently. *)
Theorem C78_display : forall n n', typed_tree n -> typed_tree n' -> display_tree n = display_tree n' -> n = n'.
Proof. exact C78_display_lemma. Qed.
Print Assumptions C78_display.
(** C78.  The printed form: one line for each step, in the order of the tree, with a bar below each
    step that has further siblings. *)
Theorem C78_lines : forall n, display_tree n = concat (map row_line (rows [] true n)).
Proof. exact C78_lines_lemma. Qed.
Print Assumptions C78_lines.

Definition small_tree : anode := ANode (5, 3) [ANode (7, 6) [ANode (6, 5) []]; ANode (12, -1) []].
Example C78_small : extract_sequences_node small_tree = [[(5, 3); (7, 6); (6, 5)]; [(5, 3); (12, -1)]] /\ typed_tree small_tree
  /\ display_tree small_tree = txt "└── (5, 3)" ++ [NL] ++ txt "    ├── (7, 6)" ++ [NL] ++ txt "    │   └── (6, 5)" ++ [NL] ++ txt "    └── (12, -1)" ++ [NL].
Proof. split; [reflexivity|]. split; [|vm_compute; reflexivity]. repeat (constructor; cbn; try lia). Qed.
(** two orders of the same steps *)
Example C78_same : forall pr, remove_duplicate_states pr initial_board [[(12, 10); (5, 4)]; [(5, 4)]; [(5, 4); (12, 10)]] (-1) = Ok [[(12, 10); (5, 4)]; [(5, 4)]].
Proof. intros []; vm_compute; reflexivity. Qed.
Example C78_hyp : WF initial_board /\ Forall die [3; 3; 3; 3] /\ bar (view initial_board) P1 = 0 /\ WF bar_board /\ 0 < bar (view bar_board) P1 /\ ~ blocked (view initial_board) P1 (entry P1 3).
Proof. split; [apply wfb_spec; vm_compute; reflexivity|]. split; [repeat constructor; unfold die; lia|]. split; [reflexivity|]. split; [apply wfb_spec; vm_compute; reflexivity|]. split; [cbn; lia|]. intros H. vm_compute in H. exact (H eq_refl). Qed.
