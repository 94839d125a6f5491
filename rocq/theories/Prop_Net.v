(** * Prop_Net: C52, C57, C65, C76 — the network's variables, loading, shapes. *)
From Coq Require Import Permutation.
From Verif Require Import Base F32 Tensor TttModel BgModel BgTensor GameModel McModel GameFacts AlphaModel AlphaInst TrainModel TrainSpec NetModel NetSpec NetApi NetApi2 Witness.
Local Open Scope string_scope.

(** C52.  Every variable of a new network gets a name of its own and its initial value. *)
Theorem C52_names : forall reqs, Forall (fun rq : string * tensor f32 => plain (fst rq)) reqs ->
  NoDup (map fst (add_all [] reqs)) /\ map snd (add_all [] reqs) = map snd reqs.
Proof. exact C52_names_lemma. Qed.
Print Assumptions C52_names.
(** C52.  Loading into a network built the same way gives back the trained weights: [from_path] and
    the copy made for a match, for every order of the file and every initialisation. *)
Theorem C52_round_trip : forall broadcast reqs reqs' (trained : store) file,
  Forall (fun rq : string * tensor f32 => plain (fst rq)) reqs -> map (fun rq : string * tensor f32 => (fst rq, shape (snd rq))) reqs' = map (fun rq : string * tensor f32 => (fst rq, shape (snd rq))) reqs ->
  map (fun nt : string * tensor f32 => (fst nt, shape (snd nt))) trained = map (fun nt : string * tensor f32 => (fst nt, shape (snd nt))) (add_all [] reqs) -> Permutation file trained ->
  from_path broadcast reqs' (Some file) = Ok trained /\ copy_model broadcast reqs' trained = Ok trained.
Proof. exact C52_round_trip_lemma. Qed.
Print Assumptions C52_round_trip.
(** C52.  Loading a file that may come from another network: every variable gets the value of that
    name in the file (libtorch broadcasts if the shapes differ); a missing name or file panics. *)
Theorem C52_load : forall broadcast reqs file, Forall (fun rq : string * tensor f32 => plain (fst rq)) reqs ->
  (forall st, from_path broadcast reqs (Some file) = Ok st -> map fst st = map fst (add_all [] reqs)
     /\ forall n v, In (n, v) st -> exists t src, In (n, t) (add_all [] reqs) /\ find_var file n = Some src
          /\ (shape src = shape t -> v = src) /\ (shape src <> shape t -> broadcast t src = Some v))
  /\ (forall n t, In (n, t) (add_all [] reqs) -> find_var file n = None -> from_path broadcast reqs (Some file) = Panic PExplicit)
  /\ ((forall n t, In (n, t) (add_all [] reqs) -> exists src, find_var file n = Some src /\ shape src = shape t) -> exists st, from_path broadcast reqs (Some file) = Ok st)
  /\ from_path broadcast reqs None = Panic PExplicit.
Proof. exact C52_load_lemma. Qed.
Print Assumptions C52_load.
(** C52, violation.  [AlphaZero::new] ignores the content of the model file and of best_model.ot. *)
Theorem C52_new : forall broadcast reqs f, alphazero_new broadcast reqs (Some (Some f)) None = Ok (add_all [] reqs)
  /\ (forall best, alphazero_new broadcast reqs (Some (Some f)) best = Ok (add_all [] reqs))
  /\ alphazero_new broadcast reqs None (Some (Some f)) = Ok (add_all [] reqs).
Proof. exact C52_new_lemma. Qed.
Print Assumptions C52_new.
(** C52.  So after a restart the weights are the freshly initialised ones. *)
Theorem C52_restart : forall broadcast reqs (trained : store) file st, Forall (fun rq : string * tensor f32 => plain (fst rq)) reqs ->
  alphazero_new broadcast reqs (Some (Some file)) None = Ok st -> (st = trained <-> trained = add_all [] reqs) /\ map snd st = map snd reqs.
Proof. exact C52_restart_lemma. Qed.
Print Assumptions C52_restart.
(** C52.  The optimiser is built before the variables exist; its first step adds exactly the
    trainable ones, later steps add nothing; building it later makes no difference. *)
Theorem C52_optimiser : forall trainable, let opt := opt_step trainable (opt_build []) in
  NoDup opt /\ (forall i, In i opt <-> nth_error trainable i = Some true) /\ opt_step trainable opt = opt
  /\ (forall known later, trainable = (known ++ later)%list -> opt_step trainable (opt_build known) = opt).
Proof. exact C52_optimiser_lemma. Qed.
Print Assumptions C52_optimiser.

(** the variables of the two networks *)
Example C52_net_names : (forall c, Forall (fun v => plain (fst (fst v))) (net_vars c)) /\ length (net_vars ttt_consts) = 70%nat /\ length (net_vars bg_consts) = 250%nat.
Proof. split; [exact net_plain|]. split; reflexivity. Qed.
Definition reqs_of (x : f32) (c : consts) : list (string * tensor f32) := map (fun v => (fst (fst v), mkT [1%nat] [x])) (firstn 14 (net_vars c)).
Example C52_first_names : map fst (add_all [] (reqs_of f0 ttt_consts))
  = ["bias"; "weight"; "weight__2"; "bias__3"; "running_mean"; "running_var"; "bias__6"; "weight__7"; "bias__8"; "weight__9"; "weight__10"; "bias__11"; "running_mean__12"; "running_var__13"].
Proof. vm_compute. reflexivity. Qed.
(** a trained network (all weights one) saved, and a fresh one (all weights zero) *)
Example C52_run : let file := add_all [] (reqs_of f1 ttt_consts) in
  from_path (fun _ _ => None) (reqs_of f0 ttt_consts) (Some file) = Ok file
  /\ alphazero_new (fun _ _ => None) (reqs_of f0 ttt_consts) (Some (Some file)) None = Ok (add_all [] (reqs_of f0 ttt_consts))
  /\ add_all [] (reqs_of f0 ttt_consts) <> file.
Proof. vm_compute. repeat split. discriminate. Qed.

(** C57.  Positions with the right number of channels and points go through the network without a
    shape error: one row of action values and one value per position. *)
Theorem C57_forward : forall c b h w, (1 <= h)%nat -> (1 <= w)%nat -> (h * w = c_conv c)%nat ->
  forward_t_shape c [b; c_input c; h; w] = Ok ([b; c_actions c], [b; 1%nat])
  /\ forward_train_shape c [b; c_input c; h; w] = Ok ([b; c_actions c], [b; 1%nat])
  /\ forward_policy_shape c [b; c_input c; h; w] = Ok [b; c_actions c].
Proof. exact C57_forward_lemma. Qed.
Print Assumptions C57_forward.
(** C57.  The positions of the two games are of that kind, and the number of outputs is that of
    the game's actions. *)
Theorem C57_games : forall pr,
  (forall s x, g_tensor (bg_game pr) s = Ok x -> forward_t_shape bg_consts (shape x) = Ok ([1; asize (bg_game pr)]%nat, [1; 1]%nat))
  /\ (forall s x, g_tensor (ttt_game pr) s = Ok x -> forward_t_shape ttt_consts (shape x) = Ok ([1; asize (ttt_game pr)]%nat, [1; 1]%nat)).
Proof. exact C57_games_lemma. Qed.
Print Assumptions C57_games.
(** C57.  The batches of training too, whether the fragments come from self-play or from files:
    the network's outputs have the shapes of the targets. *)
Theorem C57_batches : forall c h w sample, (1 <= h)%nat -> (1 <= w)%nat -> (h * w = c_conv c)%nat -> c_input c <> 1%nat -> sample <> [] ->
  uniform (c_actions c) [1; c_input c; h; w]%nat sample \/ uniform (c_actions c) [c_input c; h; w] sample ->
  exists x p o, batch_tensors sample = Ok (x, p, o) /\ forward_train_shape c (shape x) = Ok (shape p, shape o).
Proof. exact C57_batches_lemma. Qed.
Print Assumptions C57_batches.
Example C57_wrong : forward_t_shape bg_consts [1; 6; 3; 6]%nat = Panic PAssert /\ forward_t_shape bg_consts [1; 5; 4; 6]%nat = Panic PAssert /\ forward_t_shape ttt_consts [3; 3; 3]%nat = Panic PAssert.
Proof. vm_compute. repeat split. Qed.
Example C57_right : forward_t_shape bg_consts [64; 6; 4; 6]%nat = Ok ([64; 1352]%nat, [64; 1]%nat) /\ forward_t_shape ttt_consts [5; 3; 3; 3]%nat = Ok ([5; 9]%nat, [5; 1]%nat).
Proof. vm_compute. split; reflexivity. Qed.
Example C57_hyp : uniform 9 [1; 3; 3; 3]%nat [mkMem 1 (mkT [9%nat] (repeat f0 9)) (mkT [1; 3; 3; 3]%nat (repeat 0%Z 27))] /\ c_input ttt_consts <> 1%nat.
Proof. split; [repeat constructor|discriminate]. Qed.

(** C65.  Whatever the layers compute: the policy of [forward_policy] is that of [forward_t]. *)
Theorem C65_policy : forall T ev softmax1 c (x : T) train p v, forward_t T ev softmax1 c x train = Ok (p, v) -> forward_policy T ev softmax1 c x train = Ok p.
Proof. exact C65_policy_lemma. Qed.
Print Assumptions C65_policy.
(** C65.  [forward_train] computes the same value, and a policy whose softmax is that of
    [forward_t]. *)
Theorem C65_train : forall T ev softmax1 c (x : T) train,
  (forall p v, forward_t T ev softmax1 c x train = Ok (p, v) <-> exists q, forward_train T ev c x train = Ok (q, v) /\ softmax1 q = Ok p).
Proof. exact C65_train_lemma. Qed.
Print Assumptions C65_train.
(** layers that add their number of outputs; the softmax doubles *)
Example C65_run : let ev (train : bool) (b : part) (i : nat) (l : layer) (x : Z) := Ok (match l with Conv _ o | Linear _ o => x + Z.of_nat o | _ => x end)%Z in
  let sm x := Ok (2 * x)%Z in
  forward_t Z ev sm ttt_consts 1%Z false = Ok (212, 69)%Z /\ forward_train Z ev ttt_consts 1%Z false = Ok (106, 69)%Z /\ forward_policy Z ev sm ttt_consts 1%Z false = Ok 212%Z.
Proof. vm_compute. repeat split. Qed.
(** a file without the last variable is rejected *)
Example C52_load_run : let file := add_all [] (reqs_of f1 ttt_consts) in
  from_path (fun _ _ => None) (reqs_of f0 ttt_consts) (Some (removelast file)) = Panic PExplicit.
Proof. vm_compute. reflexivity. Qed.

(** C76.  The layers of a forward pass: three in front, the residual blocks, two heads on the same
    features, a softmax over the policy only. *)
Theorem C76_layers : forall T ev softmax1 c (x : T) train p v,
  forward_t T ev softmax1 c x train = Ok (p, v) <->
  exists a b q, let f := c_filters c in
    chain (ev train InPart) 0 [Conv (c_input c) f; BNorm f; Relu] x a
    /\ chain (ev train ResPart) 0 (repeat (Res f) (c_blocks c)) a b
    /\ chain (ev train PolicyPart) 0 [Conv f 32; BNorm 32; Relu; Flatten; Linear (32 * c_conv c) (c_actions c)] b q /\ softmax1 q = Ok p
    /\ chain (ev train ValuePart) 0 [Conv f 3; BNorm 3; Relu; Flatten; Linear (3 * c_conv c) 1; Tanh] b v.
Proof. exact C76_layers_lemma. Qed.
Print Assumptions C76_layers.
(** C76.  The variables in the order of their registration, with names and shapes; exactly the
    weights and biases are trainable. *)
Theorem C76_variables : forall c, let f := c_filters c in
  map fst (net_vars c) = (conv_spec (c_input c) f ++ norm_spec f
    ++ copies (c_blocks c) (conv_spec f f ++ conv_spec f f ++ norm_spec f ++ norm_spec f)
    ++ (conv_spec f 32 ++ norm_spec 32 ++ linear_spec (32 * c_conv c) (c_actions c))
    ++ conv_spec f 3 ++ norm_spec 3 ++ linear_spec (3 * c_conv c) 1)%list
  /\ length (net_vars c) = (22 + 12 * c_blocks c)%nat
  /\ (forall name sh trainable, In (name, sh, trainable) (net_vars c) -> (trainable = true <-> In name ["weight"; "bias"]) /\ (trainable = false <-> In name ["running_mean"; "running_var"])).
Proof. exact C76_variables_lemma. Qed.
Print Assumptions C76_variables.
(** C76.  The number of numbers that training adjusts, in general and in the two games. *)
Theorem C76_parameters :
  (forall c, let i := N.of_nat (c_input c) in let f := N.of_nat (c_filters c) in let b := N.of_nat (c_blocks c) in let k := N.of_nat (c_conv c) in let a := N.of_nat (c_actions c) in
     adjusted (net_vars c) = (f * (9 * i + 1) + 2 * f + b * (2 * (f * (9 * f + 1)) + 4 * f) + (32 * (9 * f + 1) + 64 + a * (32 * k + 1)) + (3 * (9 * f + 1) + 6 + (3 * k + 1)))%N)
  /\ adjusted (net_vars ttt_consts) = 321262%N /\ adjusted (net_vars bg_consts) = 23577594%N.
Proof. exact C76_parameters_lemma. Qed.
Print Assumptions C76_parameters.
(** C76.  The name in the file: a base name used before gets the position as suffix. *)
Theorem C76_names : forall reqs, Forall (fun rq : string * tensor f32 => plain (fst rq)) reqs ->
  length (add_all [] reqs) = length reqs /\ forall k base v, nth_error reqs k = Some (base, v) ->
    (In base (map fst (firstn k reqs)) -> nth_error (add_all [] reqs) k = Some (base ++ "__" ++ show_nat k, v))
    /\ (~ In base (map fst (firstn k reqs)) -> nth_error (add_all [] reqs) k = Some (base, v)).
Proof. exact C76_names_lemma. Qed.
Print Assumptions C76_names.
(** C76.  The network of one game refuses the file of the other, whatever libtorch makes of
    different shapes. *)
Theorem C76_other_game : forall broadcast reqs_t reqs_b file_t file_b,
  map fst reqs_t = map (fun v => fst (fst v)) (net_vars ttt_consts) -> map fst reqs_b = map (fun v => fst (fst v)) (net_vars bg_consts) ->
  Permutation (map fst file_t) (map fst (add_all [] reqs_t)) -> Permutation (map fst file_b) (map fst (add_all [] reqs_b)) ->
  from_path broadcast reqs_b (Some file_t) = Panic PExplicit /\ from_path broadcast reqs_t (Some file_b) = Panic PExplicit.
Proof. exact C76_other_game_lemma. Qed.
Print Assumptions C76_other_game.
Example C76_chain : let ev (train : bool) (b : part) (i : nat) (l : layer) (x : list layer) := Ok (x ++ [l])%list in
  forward_t (list layer) ev (fun x => Ok (x ++ [Softmax])%list) (mkConsts 2 3 5 7 2) [] false
  = Ok ([Conv 3 7; BNorm 7; Relu; Res 7; Res 7; Conv 7 32; BNorm 32; Relu; Flatten; Linear 160 2; Softmax],
        [Conv 3 7; BNorm 7; Relu; Res 7; Res 7; Conv 7 3; BNorm 3; Relu; Flatten; Linear 15 1; Tanh]).
Proof. reflexivity. Qed.
Example C76_names_run : Forall (fun rq : string * tensor f32 => plain (fst rq)) (reqs_of f0 ttt_consts)
  /\ nth_error (add_all [] (reqs_of f0 ttt_consts)) 9 = Some ("weight__9", mkT [1%nat] [f0]) /\ nth_error (add_all [] (reqs_of f0 ttt_consts)) 4 = Some ("running_mean", mkT [1%nat] [f0]).
Proof.
  split; [|split; reflexivity]. apply Forall_forall. intros rq H. unfold reqs_of in H. apply in_map_iff in H. destruct H as (v & <- & H). cbn [fst].
  assert (Hp := net_plain ttt_consts). rewrite Forall_forall in Hp. apply Hp. rewrite <- (firstn_skipn 14 (net_vars ttt_consts)). apply in_or_app. left. exact H.
Qed.
Example C76_files : exists reqs_t reqs_b : list (string * tensor f32), map fst reqs_t = map (fun v => fst (fst v)) (net_vars ttt_consts) /\ map fst reqs_b = map (fun v => fst (fst v)) (net_vars bg_consts)
  /\ Permutation (map fst (add_all [] reqs_t)) (map fst (add_all [] reqs_t)) /\ length reqs_t = 70%nat /\ length reqs_b = 250%nat.
Proof. exists (blank ttt_consts), (blank bg_consts). split; [apply blank_names|]. split; [apply blank_names|]. split; [apply Permutation_refl|]. split; reflexivity. Qed.
