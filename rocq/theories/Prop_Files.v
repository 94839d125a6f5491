(** * Prop_Files: C51 — finding training data. *)
From Coq Require Import Permutation.
From Verif Require Import Base F32 Tensor TrainModel TrainSpec FilesModel FilesSpec FilesApi Witness.
Local Open Scope string_scope.

(** C51.  In a tree all of whose directories can be listed, the walk returns the outermost entries
    with sp in their names, each once, whatever the order of the entries. *)
Theorem C51_found : forall n dir, tree n -> listable n ->
  exists ps, get_all_paths_rec dir n [] = (map (app dir) ps, true) /\ NoDup ps /\ forall p, In p ps <-> outermost_sp n p.
Proof. exact C51_found_lemma. Qed.
Print Assumptions C51_found.
(** C51.  A directory that cannot be listed stops the walk; the error is dropped by the command.
    What was found so far is right, but entries may be missing. *)
Theorem C51_unreadable : forall n dir, tree n -> exists ps ok, get_all_paths_rec dir n [] = (map (app dir) ps, ok) /\ NoDup ps
  /\ (forall p, In p ps -> outermost_sp n p) /\ (ok = true -> forall p, outermost_sp n p -> In p ps).
Proof. exact C51_unreadable_lemma. Qed.
Print Assumptions C51_unreadable.
(** C51.  For the directories that the learning loop writes, and run ids without sp, these are
    exactly the data directories. *)
Theorem C51_layout : forall runs, NoDup (map fst runs) -> Forall (fun run => ~ has_sp (fst run)) runs ->
  forall dir, exists ps, get_all_paths_rec dir (data_node runs) [] = (map (app dir) ps, true) /\ NoDup ps
  /\ forall p, In p ps <-> exists id lrns l ss i s, In (id, lrns) runs /\ nth_error lrns l = Some ss /\ nth_error ss i = Some s
                         /\ p = ["run-" ++ id; "lrn-" ++ dec l; "sp-" ++ dec i] /\ option_map data_files (open_path (data_node runs) p) = Some (Some s).
Proof. exact C51_layout_lemma. Qed.
Print Assumptions C51_layout.
(** C51.  The train command trains on the concatenation of what the directories found hold. *)
Theorem C51_trained : forall pr W optimise root bs (w : W) run_id learn self_play r p n, tree n -> listable n ->
  data_path run_id learn self_play = Ok p -> open_path root p = Some n ->
  exists ps, NoDup ps /\ (forall q, In q ps <-> outermost_sp n q)
    /\ train_command pr W optimise root bs w run_id learn self_play r
       = (datas <- mmap (fun q => load_path root (p ++ q)%list) ps ;; '(w', _, r') <- train pr W optimise bs w (concat datas) r ;; Ok (w', r')).
Proof. exact C51_trained_lemma. Qed.
Print Assumptions C51_trained.
(** C51.  Asked for one learn iteration, it trains on all its self-plays, in directory order. *)
Theorem C51_learn_iteration : forall pr W optimise root bs (w : W) id l es ss r,
  open_path root ["run-" ++ id; "lrn-" ++ l] = Some (Dir true es) -> NoDup (map fst es) ->
  map (fun e => data_files (snd e)) es = map Some ss -> Forall (fun e => exists k, fst e = "sp-" ++ dec k) es ->
  train_command pr W optimise root bs w (Some id) (Some l) None r
  = (datas <- mmap (fun s => load_training_data (Some s)) ss ;; '(w', _, r') <- train pr W optimise bs w (concat datas) r ;; Ok (w', r')).
Proof. exact C51_learn_iteration_lemma. Qed.
Print Assumptions C51_learn_iteration.
(** C51, violation.  Asked for one self-play, it trains on nothing and reports success. *)
Theorem C51_single_self_play : forall pr W optimise root bs (w : W) id l sp es r, 1 <= bs ->
  open_path root ["run-" ++ id; "lrn-" ++ l; "sp-" ++ sp] = Some (Dir true es) ->
  Forall (fun e => ~ has_sp (fst e) /\ exists x, snd e = File x) es ->
  train_command pr W optimise root bs w (Some id) (Some l) (Some sp) r = Ok (w, r).
Proof. exact C51_single_self_play_lemma. Qed.
Print Assumptions C51_single_self_play.
(** C51, violation.  A run id with sp in it makes the command panic. *)
Theorem C51_run_id : forall pr W optimise es bs (w : W) id m r, tree (Dir true es) -> listable (Dir true es) ->
  In ("run-" ++ id, m) es -> has_sp id -> data_files m = None ->
  exists p, train_command pr W optimise (Dir true es) bs w None None None r = Panic p.
Proof. exact C51_run_id_lemma. Qed.
Print Assumptions C51_run_id.

Definition toy (k : Z) : mem := mkMem k (mkT [2%nat] [f32_of_Z k; f1]) (mkT [1; 2]%nat [k; 7%Z]).
Definition toy_saved (ks : list Z) : saved := match save_training_data true (map toy ks) with Ok s => s | Panic _ => mkSaved (mkT [] []) (mkT [] []) (mkT [] []) end.
Definition toy_runs : list (string * list (list saved)) := [("a1", [[toy_saved [1; -1]%Z; toy_saved [0; 1; 1]%Z]; [toy_saved [1; 0]%Z]]); ("b2", [])].
Definition toy_optimise (w : list (list Z)) (x : tensor Z) (p : tensor f32) (o : tensor Z) : res (list (list Z)) := Ok (w ++ [data o])%list.
Example C51_walk : get_all_paths_rec [] (data_node toy_runs) [] = ([["run-a1"; "lrn-0"; "sp-0"]; ["run-a1"; "lrn-0"; "sp-1"]; ["run-a1"; "lrn-1"; "sp-0"]], true).
Proof. vm_compute. reflexivity. Qed.
(** all data, one learn iteration, one self-play: 7, 5 and no fragments *)
Example C51_run : map (fun args => match train_command Debug _ toy_optimise (data_node toy_runs) 100 [] (fst (fst args)) (snd (fst args)) (snd args) rng0 with
    Ok (w, _) => Some (map (@length Z) w) | Panic _ => None end)
  [(None, None, None); (Some "a1", Some "0", None); (Some "a1", Some "0", Some "1"); (Some "b2", None, None); (Some "c3", None, None); (None, Some "0", None)]
  = [Some [7]; Some [5]; Some []; Some []; None; None]%nat.
Proof. vm_compute. reflexivity. Qed.
Example C51_spam : exists p, train_command Debug _ toy_optimise (data_node [("spam", [[toy_saved [1; -1]%Z]])]) 100 [] None None None rng0 = Panic p.
Proof. eexists. vm_compute. reflexivity. Qed.
Example C51_hypotheses : tree (data_node toy_runs) /\ listable (data_node toy_runs) /\ Forall (fun run => ~ has_sp (fst run)) toy_runs /\ has_sp "spam".
Proof.
  assert (Hn : NoDup (map fst toy_runs)) by (repeat constructor; cbn; intuition discriminate). destruct (standard_tree toy_runs Hn) as [HT HL]. split; [exact HT|]. split; [exact HL|]. split.
  - repeat constructor; intros H; apply contains_spec in H; discriminate H.
  - exists "", "am". reflexivity.
Qed.
(** the second directory cannot be listed: its data and all later data are lost *)
Example C51_unreadable_run : get_all_paths_rec [] (Dir true [("run-a", lrn_node [toy_saved [1; -1]%Z]); ("run-b", Dir false []); ("run-c", lrn_node [toy_saved [1; 1]%Z])]) [] = ([["run-a"; "sp-0"]], false).
Proof. vm_compute. reflexivity. Qed.
