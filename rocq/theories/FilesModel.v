(** * FilesModel: the directories of training data and the train command.
    src/main.rs:178-231 (MN) and src/alphazero/alphazero.rs:184-200 (AZ).

    Simplifications: a path is a list of names (so an id with a slash or [..] in it is left out),
    names are valid UTF-8, links do not occur, and a directory either can be listed as a whole or
    not at all.  The order of the entries of a directory is that of [read_dir], which is not
    specified: theorems hold for every order. *)
From Coq Require Export String.
From Verif Require Export Base F32 Tensor TrainModel.
Local Open Scope string_scope.

(** what a file can hold *)
Inductive payload := Floats (t : tensor f32) | Ints (t : tensor Z) | Bytes.
Inductive node := File (p : payload) | Dir (readable : bool) (es : list (string * node)).
Definition path := list string.

(** [str::contains] *)
Fixpoint contains (pat s : string) : bool :=
  prefix pat s || match s with EmptyString => false | String _ s' => contains pat s' end.

(** MN:218-231.  The result is the vector [res] and whether the call returned [Ok]: on an error the
    vector keeps what was pushed before *)
Fixpoint get_all_paths_rec (dir : path) (n : node) (res : list path) : list path * bool :=
  match n with
  | File _ => (res, true)
  | Dir false _ => (res, false)
  | Dir true es =>
    (fix entries (es : list (string * node)) (res : list path) : list path * bool :=
       match es with
       | [] => (res, true)
       | (name, m) :: es' =>
         if contains "sp" name then entries es' (res ++ [dir ++ [name]])%list
         else let (res', ok) := get_all_paths_rec (dir ++ [name])%list m res in
              if ok then entries es' res' else (res', false)
       end) es res
  end.

(** opening a path *)
Fixpoint entry (es : list (string * node)) (name : string) : option node :=
  match es with [] => None | (n, m) :: es' => if String.eqb n name then Some m else entry es' name end.
Fixpoint open_path (n : node) (p : path) : option node :=
  match p with
  | [] => Some n
  | name :: p' => match n with File _ => None | Dir _ es => match entry es name with None => None | Some m => open_path m p' end end
  end.
(** AZ:185-190: the three files of a directory *)
Definition data_files (n : node) : option saved :=
  match open_path n ["ps.ot"], open_path n ["states.ot"], open_path n ["outcomes.ot"] with
  | Some (File (Floats p)), Some (File (Ints s)), Some (File (Ints o)) => Some (mkSaved p s o)
  | _, _, _ => None
  end.
(** AZ:184-200 on a path below [root] *)
Definition load_path (root : node) (p : path) : res (list mem) :=
  match open_path root p with
  | None => Panic PExplicit
  | Some n => load_training_data (data_files n)
  end.

(** MN:181-188: the directory asked for, below ./data/{game} *)
Definition data_path (run_id learn self_play : option string) : res path :=
  match run_id, learn, self_play with
  | None, None, None => Ok []
  | Some id, None, None => Ok ["run-" ++ id]
  | Some id, Some l, None => Ok ["run-" ++ id; "lrn-" ++ l]
  | Some id, Some l, Some sp => Ok ["run-" ++ id; "lrn-" ++ l; "sp-" ++ sp]
  | _, _, _ => Panic PExplicit
  end.
(** MN:178-204 without saving the model: [root] is ./data/{game} *)
Definition train_command (pr : profile) (W : Type) (optimise : W -> tensor Z -> tensor f32 -> tensor Z -> res W)
    (root : node) (bs : Z) (w : W) (run_id learn self_play : option string) (r : rng) : res (W * rng) :=
  p <- data_path run_id learn self_play ;;
  match open_path root p with
  | None => Panic PExplicit
  | Some n =>
    let (paths, _) := get_all_paths_rec p n [] in
    datas <- mmap (load_path root) paths ;;
    '(w', _, r') <- train pr W optimise bs w (concat datas) r ;;
    Ok (w', r')
  end.
