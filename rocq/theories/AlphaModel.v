(** * AlphaModel: the network-guided search.
    src/mcts/alpha_mcts.rs (AM), src/mcts/utils.rs (UT), src/mcts/noise.rs (NO),
    src/mcts/node.rs (ND), function by function, for an arbitrary game.

    Parameters: the network is any pair of functions on tensors; [tsum] is libtorch's [sum]
    of a float tensor, whose order of summation is unspecified; [dirichlet] is the sampler
    of rand_distr.  Devices, [no_grad] guards and progress bars are left out. *)
From Verif Require Export Base F32 GameModel McModel.

(** Arithmetic of the tensor functions, so that they can be read both over [f32] (what the
    program does) and over the rationals (what the formulas say). *)
Record num := mkNum { V : Type; v0 : V; v1 : V; vadd : V -> V -> V; vmul : V -> V -> V; vdiv : V -> V -> V;
                      vsum : list V -> V }.
Definition num32 (tsum : list f32 -> f32) : num := mkNum f32 f0 f1 fadd fmul fdiv tsum.

Section Probs.
  Variable N : num.
  Notation V := (V N).

  (** UT:74-84 on a one-dimensional policy; [codes] are the codes of the node's moves *)
  Definition probs_tensor (policy : list V) (codes : list Z) : res (list V) :=
    vals <- mmap (idx policy) codes ;;
    r <- put1 (map (fun _ => v0 N) policy) codes vals ;;
    let sum := vsum N r in
    Ok (map (fun x => vdiv N x sum) r).

  (** UT:60-72; one list of codes for each entry of [node_indices], which are row numbers *)
  Definition probs_tensor_parallel (policy : list (list V)) (node_indices : list nat) (codes : list (list Z))
    : res (list (list V)) :=
    let xy := flat_map (fun ic => map (fun c => (Z.of_nat (fst ic), c)) (snd ic)) (combine node_indices codes) in
    mask <- put2 (map (map (fun _ => v0 N)) policy) xy (map (fun _ => v1 N) xy) ;;
    let sel := map (fun pm => map (fun ab => vmul N (fst ab) (snd ab)) (combine (fst pm) (snd pm)))
                   (combine policy mask) in
    Ok (map (fun row => map (fun x => vdiv N x (vsum N row)) row) sel).

  (** UT:86-103; [get] reads the policy tensor.  The vector has 1352 entries for every game. *)
  Definition probs_vec (get : Z -> res V) (codes : list Z) : res (list V) :=
    values <- mfold (fun vs c => v <- get c ;; upd vs c v) codes (repeat (v0 N) 1352) ;;
    let sum := fold_left (vadd N) values (v0 N) in
    mfold (fun vs c => x <- idx vs c ;; upd vs c (vdiv N x sum)) codes values.

  (** UT:20-34: the visit distribution of one root; [cv] lists (code, visits) of its children *)
  Definition visit_probs (A : nat) (cv : list (Z * V)) : res (list V) :=
    r <- put1 (repeat (v0 N) A) (map fst cv) (map snd cv) ;;
    let sum := vsum N r in
    Ok (map (fun x => vdiv N x sum) r).

  (** UT:42-58; one such list for each root *)
  Definition visit_probs_parallel (A : nat) (cvs : list (list (Z * V))) : res (list (list V)) :=
    let xyv := flat_map (fun ic => map (fun cv => ((Z.of_nat (fst ic), fst cv), snd cv)) (snd ic))
                        (combine (seq 0 (length cvs)) cvs) in
    m <- put2 (repeat (repeat (v0 N) A) (length cvs)) (map fst xyv) (map snd xyv) ;;
    Ok (map (fun row => map (fun x => vdiv N x (vsum N row)) row) m).
End Probs.

(** nnet.rs:112-126, 144-149 ([forward_policy] computes the first component of [forward_t]) *)
Record net := mkNet { net_policy : tensor Z -> tensor f32; net_value : tensor Z -> tensor f32 }.

Section Alpha.
  Variable G : Game.
  Variable tsum : list f32 -> f32.
  Variable dirichlet : nat -> f32 -> rng -> list f32 * rng.
  Notation node := (node G).
  Notation store := (store G).
  Let N32 := num32 tsum.
  Definition asize : nat := Z.to_nat (g_actions G).

  (** codes of a list of moves *)
  Definition encode_all (s : St G) (ms : list (Mv G)) : res (list Z) := mmap (g_encode G s) ms.

  (** UT:74-84 *)
  Definition turn_policy_to_probs_tensor (policy : tensor f32) (n : node) : res (tensor f32) :=
    codes <- encode_all (n_state n) (n_exp n) ;;
    r <- probs_tensor N32 (data policy) codes ;;
    Ok (mkT (shape policy) r).
  (** UT:60-72 *)
  Definition turn_policy_to_probs_tensor_parallel (st : store) (is : list nat) (policy : tensor f32)
    : res (tensor f32) :=
    codes <- mmap (fun i => n <- get_node st i ;; encode_all (n_state n) (n_exp n)) is ;;
    r <- probs_tensor_parallel N32 (rows policy) is codes ;;
    Ok (mkT (shape policy) (concat r)).
  (** UT:86-103 *)
  Definition turn_policy_to_probs (policy : tensor f32) (n : node) : res (list f32) :=
    codes <- encode_all (n_state n) (n_exp n) ;;
    probs_vec N32 (fun c => double_value policy [Z.to_nat c]) codes.

  (** UT:12-35 *)
  Definition child_visits (s : St G) (st : store) (n : node) : res (list (Z * f32)) :=
    mmap (fun c => cn <- get_node st c ;;
                   match n_action cn with
                   | Some a => code <- g_encode G s a ;; Ok (code, n_visits cn)
                   | None => Panic PUnwrap
                   end) (n_children n).
  Definition get_prob_tensor (s : St G) (root : nat) (st : store) : res (option (list f32)) :=
    n <- get_node st root ;;
    match n_children n with
    | [] => Ok None
    | _ => cv <- child_visits s st n ;; p <- visit_probs N32 asize cv ;; Ok (Some p)
    end.
  (** UT:42-58 *)
  Definition get_prob_tensor_parallel (ns : list node) (st : store) : res (list (list f32)) :=
    cvs <- mmap (fun n => child_visits (n_state n) st n) ns ;;
    visit_probs_parallel N32 asize cvs.

  (** ND:139-155 and ND:157-174; they differ in how the prior of a code is read *)
  Fixpoint alpha_expand_loop (prior : Z -> res f32) (n : node) (acts : list (Mv G)) (ch : list nat)
           (st : store) (r : rng) : res (list nat * store * rng) :=
    match acts with
    | [] => Ok (ch, st, r)
    | a :: rest =>
      code <- g_encode G (n_state n) a ;;
      v <- prior code ;;
      '(s', r') <- g_apply G (n_state n) a r ;;
      '(ci, st') <- add_node st s' (Some (n_idx n)) (Some a) v ;;
      alpha_expand_loop prior n rest (ch ++ [ci]) st' r'
    end.
  Definition alpha_expand_with (prior : Z -> res f32) (n : node) (st : store) (r : rng) : res (node * store * rng) :=
    '(ch, st1, r') <- alpha_expand_loop prior n (n_exp n) (n_children n) st r ;;
    let n' := mkNode (n_state n) (n_idx n) (n_parent n) ch (n_visits n) (n_value n) (n_policy n) (n_action n) [] in
    st2 <- set_node st1 n' ;;
    Ok (n', st2, r').
  Definition alpha_expand (policy : list f32) := alpha_expand_with (fun c => idx policy c).
  Definition alpha_expand_tensor (policy : tensor f32) := alpha_expand_with (fun c => double_value policy [Z.to_nat c]).

  (** AM:22-33 *)
  Definition select_alpha (i : nat) (st : store) (c : f32) : res node :=
    n <- get_node st i ;;
    ch <- children_of st n ;;
    b <- best_by (fun m => alpha_ucb m st c) ch ;;
    match b with Some m => Ok m | None => Panic PUnwrap end.
  (** AM:14-20; fuel as in McModel *)
  Fixpoint alpha_select_fuel (fuel : nat) (i : nat) (st : store) (c : f32) : res nat :=
    match fuel with
    | O => Panic PFuel
    | S fuel' =>
      n <- get_node st i ;;
      match n_children n with
      | [] => Ok (n_idx n)
      | _ => m <- select_alpha i st c ;; alpha_select_fuel fuel' (n_idx m) st c
      end
    end.
  Definition alpha_select_leaf_node (i : nat) (st : store) (c : f32) : res nat :=
    alpha_select_fuel (S (length st)) i st c.

  (** rand_distr: [Dirichlet::new] rejects fewer than two and non-positive parameters *)
  Definition dirichlet_new (k : nat) (alpha : f32) : res unit :=
    if (2 <=? k)%nat && SFltb f0 alpha then Ok tt else Panic PUnwrap.
  (** NO:9-22 *)
  Definition node_apply_dirichlet (n : node) (alpha eps : f32) (st : store) (r : rng) : res (store * rng) :=
    if SFltb f0 (n_visits n) then
      _ <- dirichlet_new (length (n_children n)) alpha ;;
      let (sample, r') := dirichlet (length (n_children n)) alpha r in
      st' <- mfold (fun st cz => let (c, noise) := cz : nat * f32 in
               match nth_error st c with
               | None => Panic PIndex
               | Some m => Ok (set_nth st c (mkNode (n_state m) (n_idx m) (n_parent m) (n_children m) (n_visits m)
                     (n_value m) (fadd (fmul noise eps) (fmul (n_policy m) (fsub f1 eps))) (n_action m) (n_exp m)))
               end) (combine (n_children n) sample) st ;;
      Ok (st', r')
    else Panic PAssert.
  (** NO:28-35: one sample is added to every row *)
  Definition apply_dirichlet (t : tensor f32) (alpha eps : f32) (r : rng) : res (tensor f32 * rng) :=
    match shape t with
    | _ :: k :: _ =>
      _ <- dirichlet_new k alpha ;;
      let (sample, r') := dirichlet k alpha r in
      Ok (mkT (shape t) (concat (map (fun row => map (fun xd => fadd (fmul (fsub f1 eps) (fst xd)) (fmul eps (snd xd)))
                                                     (combine row sample)) (rows t))), r')
    | _ => Panic PIndex
    end.

  Variable net : net.
  Variable cfg : mcfg.

  (** AM:35-51 *)
  Definition apply_dirichlet_to_root (root : nat) (st : store) (s : St G) (r : rng) : res (store * rng) :=
    n <- get_node st root ;;
    x <- g_tensor G s ;;
    let policy := net_policy net x in
    pv <- turn_policy_to_probs policy n ;;
    '(n', st', r') <- alpha_expand pv n st r ;;
    if (length (n_children n') <? 2)%nat then Ok (st', r')
    else
      let n2 := mkNode (n_state n') (n_idx n') (n_parent n') (n_children n') f1 (n_value n') (n_policy n') (n_action n') (n_exp n') in
      '(st2, r2) <- node_apply_dirichlet n2 (dir_alpha cfg) (dir_eps cfg) st' r' ;;
      st3 <- set_node st2 n2 ;;
      Ok (st3, r2).

  (** AM:67-83: one iteration of the sequential search from position [s] *)
  Definition alpha_iter (s : St G) (sr : store * rng) : res (store * rng) :=
    let (st, r) := sr in
    i <- alpha_select_leaf_node 0 st (cfg_c cfg) ;;
    n <- get_node st i ;;
    '(value, st', r') <-
      (if is_terminal n then
         match g_winner G s with
         | None => Panic PUnwrap
         | Some w => z <- i8 (g_pr G) (w + 1) ;; Ok (f32_of_Z (Z.quot z 2), st, r)
         end
       else
         x <- g_tensor G (n_state n) ;;
         pv <- turn_policy_to_probs (net_policy net x) n ;;
         '(_, st', r') <- alpha_expand pv n st r ;;
         v <- double_value (net_value net x) [0%nat] ;;
         Ok (v, st', r')) ;;
    st2 <- backpropagate i value st' ;;
    Ok (st2, r').
  Fixpoint alpha_loop (k : nat) (s : St G) (sr : store * rng) : res (store * rng) :=
    match k with
    | O => Ok sr
    | S k' => sr' <- alpha_iter s sr ;; alpha_loop k' s sr'
    end.
  (** AM:53-85 *)
  Definition alpha_mcts (s : St G) (r : rng) : res (option (list f32) * rng) :=
    match g_winner G s with
    | Some _ => Ok (None, r)
    | None =>
      st0 <- mcts_init s ;;
      sr <- apply_dirichlet_to_root 0 st0 s r ;;
      '(st, r') <- alpha_loop (iterations cfg) s sr ;;
      p <- get_prob_tensor s 0 st ;;
      Ok (p, r')
    end.

  (** AM:98-102, AM:165-173: the input batch of a list of positions *)
  Definition batch (ss : list (St G)) : res (tensor Z) :=
    xs <- mmap (g_tensor G) ss ;;
    x <- stack 0 0 xs ;;
    Ok (squeeze_dim 1 x).

  (** AM:142-158: selection for one game; [sel] is [selected_nodes_idxs] *)
  Definition par_select (acc : store * list nat * bool) (g : nat) : res (store * list nat * bool) :=
    let '(st, sel, flag) := acc in
    i <- alpha_select_leaf_node g st (cfg_c cfg) ;;
    n <- get_node st i ;;
    match g_winner G (n_state n) with
    | Some w =>
      root <- get_node st g ;;
      v <- outcome G (g_player G (n_state root)) w ;;
      st' <- backpropagate i v st ;;
      Ok (st', sel, flag)
    | None =>
      sel' <- upd sel (Z.of_nat g) (n_idx n) ;;
      Ok (st, sel', true)
    end.
  (** AM:190-200: expansion of one entry of [sel] *)
  Definition par_process (policy eval : tensor f32) (sr : store * rng) (e : nat * nat) : res (store * rng) :=
    let (st, r) := sr in
    let (k, i) := e in
    n <- get_node st i ;;
    policy_i <- select0 policy k ;;
    eval_i <- select0 eval k ;;
    prob <- turn_policy_to_probs_tensor policy_i n ;;
    '(_, st', r') <- alpha_expand_tensor prob n st r ;;
    v <- double_value eval_i [0%nat] ;;
    st2 <- backpropagate (n_idx n) v st' ;;
    Ok (st2, r').
  (** AM:138-201: one iteration; [order] is the iteration order of the HashSet [games] *)
  Definition par_iter (order : list nat) (a : store * list nat * rng) : res (store * list nat * rng) :=
    let '(st, sel, r) := a in
    '(st1, sel1, flag) <- mfold par_select order (st, sel, false) ;;
    if flag : bool then
      ss <- mmap (fun i => n <- get_node st1 i ;; Ok (n_state n)) sel1 ;;
      x <- batch ss ;;
      '(st2, r2) <- mfold (par_process (net_policy net x) (net_value net x)) (combine (seq 0 (length sel1)) sel1) (st1, r) ;;
      Ok (st2, sel1, r2)
    else Ok (st1, sel1, r).
  Fixpoint par_loop (k : nat) (order : list nat) (a : store * list nat * rng) : res (store * list nat * rng) :=
    match k with
    | O => Ok a
    | S k' => a' <- par_iter order a ;; par_loop k' order a'
    end.
  (** AM:108-111 *)
  Definition par_roots (ss : list (St G)) : res store :=
    mfold (fun st s => '(_, st') <- add_node st s None None f0 ;; Ok st') ss [].
  (** AM:118-127 *)
  Definition par_expand_root (prob : tensor f32) (sr : store * rng) (i : nat) : res (store * rng) :=
    let (st, r) := sr in
    n <- get_node st i ;;
    p <- select0 prob i ;;
    let n1 := mkNode (n_state n) (n_idx n) (n_parent n) (n_children n) f1 (n_value n) (n_policy n) (n_action n) (n_exp n) in
    '(_, st', r') <- alpha_expand_tensor p n1 st r ;;
    Ok (st', r').
  (** AM:97-127: everything before the loop *)
  Definition par_init (ss : list (St G)) (r : rng) : res (store * rng) :=
    x <- batch ss ;;
    '(dir, r1) <- apply_dirichlet (net_policy net x) (dir_alpha cfg) (dir_eps cfg) r ;;
    st <- par_roots ss ;;
    prob <- turn_policy_to_probs_tensor_parallel st (seq 0 (length ss)) dir ;;
    mfold (par_expand_root prob) (seq 0 (length ss)) (st, r1).
  (** AM:91-202; the store passed in must be empty, which every caller ensures *)
  Definition alpha_mcts_parallel (order : list nat) (st0 : store) (ss : list (St G)) (r : rng) : res (store * rng) :=
    match st0 with
    | [] =>
      '(st, r1) <- par_init ss r ;;
      '(st', _, r') <- par_loop (iterations cfg) order (st, repeat 0%nat (length ss), r1) ;;
      Ok (st', r')
    | _ => Panic PAssert
    end.
End Alpha.
Arguments encode_all {G}. Arguments turn_policy_to_probs_tensor {G}. Arguments turn_policy_to_probs {G}.
Arguments turn_policy_to_probs_tensor_parallel {G}. Arguments child_visits {G}. Arguments get_prob_tensor {G}.
Arguments get_prob_tensor_parallel {G}. Arguments alpha_expand_loop {G}. Arguments alpha_expand_with {G}.
Arguments alpha_expand {G}. Arguments alpha_expand_tensor {G}. Arguments select_alpha {G}. Arguments alpha_select_fuel {G}.
Arguments alpha_select_leaf_node {G}. Arguments node_apply_dirichlet {G}.
Arguments apply_dirichlet_to_root {G}. Arguments alpha_iter {G}. Arguments alpha_loop {G}. Arguments alpha_mcts {G}.
Arguments batch {G}. Arguments par_select {G}. Arguments par_process {G}. Arguments par_iter {G}. Arguments par_loop {G}.
Arguments par_roots {G}. Arguments par_expand_root {G}. Arguments par_init {G}. Arguments alpha_mcts_parallel {G}.
