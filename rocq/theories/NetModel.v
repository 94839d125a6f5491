(** * NetModel: the network's variables and the shapes of its layers.
    src/alphazero/nnet.rs (NN), src/alphazero/alphazero.rs:81-111 (AZ),
    src/alphazero/alpha_versus.rs:59-63 (AV) and the variable store of the crate tch 0.13 (TCH:
    [nn::VarStore], [nn::Path::add], [nn::Optimizer]).

    A variable is its name and value; the value a variable starts with ([init], random in the
    code) is arbitrary.  Devices are left out. *)
From Coq Require Export String DecimalString.
From Verif Require Export Base F32 Tensor.
Local Open Scope string_scope.

Definition store := list (string * tensor f32).
Fixpoint find_var (st : store) (name : string) : option (tensor f32) :=
  match st with [] => None | (n, t) :: st' => if String.eqb n name then Some t else find_var st' name end.
(** [format!("{}", n)] *)
Definition show_nat (n : nat) : string := NilEmpty.string_of_uint (Nat.to_uint n).
Fixpoint set_var (st : store) (name : string) (v : tensor f32) : store :=
  match st with
  | [] => [(name, v)]
  | (n, t) :: st' => if String.eqb n name then (n, v) :: st' else (n, t) :: set_var st' name v
  end.
(** TCH [Path::add]: a name already taken gets the number of variables as suffix; [insert] *)
Definition add_var (st : store) (base : string) (v : tensor f32) : store :=
  let name := match find_var st base with Some _ => base ++ "__" ++ show_nat (length st) | None => base end in
  set_var st name v.
Definition add_all (st : store) (reqs : list (string * tensor f32)) : store :=
  fold_left (fun st rq => add_var st (fst rq) (snd rq)) reqs st.

(** [Tensor::copy_]: equal shapes copy; [broadcast] is what libtorch does with others *)
Section Files.
  Variable broadcast : tensor f32 -> tensor f32 -> option (tensor f32).
  Definition same_shape (a b : list nat) : bool := shape_eqb a b.
  Definition copy_ (var src : tensor f32) : option (tensor f32) :=
    if same_shape (shape var) (shape src) then Some (mkT (shape var) (data src)) else broadcast var src.
  (** TCH [VarStore::load] and [VarStore::copy]: every variable of the store is looked up in the
      file; a missing name or a failing copy is an error *)
  Fixpoint load_vars (file : store) (st : store) : option store :=
    match st with
    | [] => Some []
    | (n, t) :: st' =>
      match find_var file n with
      | None => None
      | Some src => match copy_ t src, load_vars file st' with Some t', Some st'' => Some ((n, t') :: st'') | _, _ => None end
      end
    end.
  (** NN:57-107 registers the variables of the layers, with initial values *)
  Definition resnet_new (reqs : list (string * tensor f32)) (st : store) : store := add_all st reqs.
  (** NN:109-118; [file]: what the path holds ([None]: it cannot be read) *)
  Definition from_path (reqs : list (string * tensor f32)) (file : option store) : res store :=
    match file with
    | None => Panic PExplicit
    | Some f => match load_vars f (resnet_new reqs []) with Some st => Ok st | None => Panic PExplicit end
    end.
  (** AZ:81-103: [path] is the model path given and what it holds, [best] what best_model.ot holds
      if it exists *)
  Definition alphazero_new (reqs : list (string * tensor f32)) (path : option (option store)) (best : option (option store)) : res store :=
    vs <- match path with
          | Some file => match file with Some f => match load_vars f [] with Some st => Ok st | None => Panic PExplicit end | None => Panic PExplicit end
          | None => match best with
                    | Some (Some f) => match load_vars f [] with Some st => Ok st | None => Panic PExplicit end
                    | Some None => Panic PExplicit
                    | None => Ok []
                    end
          end ;;
    Ok (resnet_new reqs vs).
  (** AV:60-63: the copy of the own model made for the match *)
  Definition copy_model (reqs : list (string * tensor f32)) (self : store) : res store :=
    match load_vars self (resnet_new reqs []) with Some st => Ok st | None => Panic PExplicit end.
End Files.

(** TCH [Optimizer]: [build] (AZ:100) takes the trainable variables registered so far, [zero_grad]
    and [step] first add those registered since.  Variables are represented by their positions *)
Definition trainable_of (trainable : list bool) : list nat := filter (fun i => nth i trainable false) (seq 0 (length trainable)).
Definition opt_build (trainable : list bool) : list nat := trainable_of trainable.
Definition opt_step (trainable : list bool) (opt : list nat) : list nat := opt ++ skipn (length opt) (trainable_of trainable).

(** ** layers and shapes *)
Inductive layer := Conv (i o : nat) | BNorm (c : nat) | Relu | Res (f : nat) | Flatten | Linear (i o : nat) | Tanh | Softmax.
(** the constants of a game: src/backgammon/backgammon_logic.rs:74-78, src/tictactoe/mod.rs:20-24 *)
Record consts := mkConsts { c_actions : nat; c_input : nat; c_conv : nat; c_filters : nat; c_blocks : nat }.
Definition bg_consts := mkConsts 1352 6 24 256 19.
Definition ttt_consts := mkConsts 9 3 9 64 4.
(** NN:64-67, 69-73, 75-85, 87-98 *)
Definition init_block (c : consts) : list layer := [Conv (c_input c) (c_filters c); BNorm (c_filters c); Relu].
Definition res_layer (c : consts) : list layer := repeat (Res (c_filters c)) (c_blocks c).
Definition policy_head (c : consts) : list layer := [Conv (c_filters c) 32; BNorm 32; Relu; Flatten; Linear (32 * c_conv c) (c_actions c)].
Definition value_head (c : consts) : list layer := [Conv (c_filters c) 3; BNorm 3; Relu; Flatten; Linear (3 * c_conv c) 1; Tanh].
(** the variables of a layer: name, shape, trainable.  TCH [nn::conv2d]: bias, weight;
    [nn::batch_norm2d]: weight, bias, running_mean, running_var; [nn::linear]: bias, weight.
    NN:36-45: a block has two convolutions and two normalisations *)
Definition conv_vars (i o : nat) : list (string * list nat * bool) := [("bias", [o], true); ("weight", [o; i; 3; 3]%nat, true)].
Definition norm_vars (c : nat) : list (string * list nat * bool) := [("weight", [c], true); ("bias", [c], true); ("running_mean", [c], false); ("running_var", [c], false)].
Definition layer_vars (l : layer) : list (string * list nat * bool) :=
  match l with
  | Conv i o => conv_vars i o
  | BNorm c => norm_vars c
  | Res f => conv_vars f f ++ conv_vars f f ++ norm_vars f ++ norm_vars f
  | Linear i o => [("bias", [o], true); ("weight", [o; i], true)]
  | _ => []
  end%list.
Definition net_vars (c : consts) : list (string * list nat * bool) :=
  flat_map layer_vars (init_block c ++ res_layer c ++ policy_head c ++ value_head c).

(** shapes.  A 3x3 convolution with padding 1, stride 1 keeps height and width; libtorch rejects
    other numbers of dimensions or channels, and tch turns that into a panic *)
Definition conv_shape (i o : nat) (sh : list nat) : res (list nat) :=
  match sh with [b; c; h; w] => if (c =? i)%nat then Ok [b; o; h + 2 - 3 + 1; w + 2 - 3 + 1]%nat else Panic PAssert | _ => Panic PAssert end.
Definition norm_shape (n : nat) (sh : list nat) : res (list nat) :=
  match sh with [_; c; _; _] => if (c =? n)%nat then Ok sh else Panic PAssert | _ => Panic PAssert end.
Definition layer_shape (l : layer) (sh : list nat) : res (list nat) :=
  match l with
  | Conv i o => conv_shape i o sh
  | BNorm c => norm_shape c sh
  | Res f => sh1 <- conv_shape f f sh ;; sh2 <- norm_shape f sh1 ;; sh3 <- conv_shape f f sh2 ;; sh4 <- norm_shape f sh3 ;;
             if shape_eqb sh4 sh then Ok sh4 else Panic PAssert  (* NN:31: add, without broadcasting *)
  | Flatten => match sh with b :: rest => match rest with [] => Panic PIndex | _ => Ok [b; numel rest] end | [] => Panic PIndex end
  | Linear i o => match sh with [b; n] => if (n =? i)%nat then Ok [b; o] else Panic PAssert | _ => Panic PAssert end
  | Relu | Tanh => Ok sh
  | Softmax => match sh with _ :: _ :: _ => Ok sh | _ => Panic PIndex end
  end.
Definition layers_shape (ls : list layer) (sh : list nat) : res (list nat) := mfold (fun sh l => layer_shape l sh) ls sh.
(** NN:120-155: the forward passes.  [ev train b i l] is what the [i]-th layer [l] of part [b]
    computes with its weights; [ev] is arbitrary, the tensors are of any type *)
Inductive part := InPart | ResPart | PolicyPart | ValuePart.
Section Forward.
  Variable T : Type.
  Variable ev : bool -> part -> nat -> layer -> T -> res T.
  Variable softmax1 : T -> res T.                                (** softmax(1, None) *)
  Definition apply_t (train : bool) (b : part) (ls : list layer) (x : T) : res T :=
    mfold (fun x il => ev train b (fst il) (snd il) x) (combine (seq 0 (length ls)) ls) x.
  (** NN:120-133 *)
  Definition forward_t (c : consts) (xs : T) (train : bool) : res (T * T) :=
    x1 <- apply_t train InPart (init_block c) xs ;;
    new_x <- apply_t train ResPart (res_layer c) x1 ;;
    q <- apply_t train PolicyPart (policy_head c) new_x ;;
    p <- softmax1 q ;;
    v <- apply_t train ValuePart (value_head c) new_x ;;
    Ok (p, v).
  (** NN:137-148 *)
  Definition forward_train (c : consts) (xs : T) (train : bool) : res (T * T) :=
    x1 <- apply_t train InPart (init_block c) xs ;;
    new_x <- apply_t train ResPart (res_layer c) x1 ;;
    p <- apply_t train PolicyPart (policy_head c) new_x ;;
    v <- apply_t train ValuePart (value_head c) new_x ;;
    Ok (p, v).
  (** NN:150-155 *)
  Definition forward_policy (c : consts) (xs : T) (train : bool) : res T :=
    x1 <- apply_t train InPart (init_block c) xs ;;
    x2 <- apply_t train ResPart (res_layer c) x1 ;;
    q <- apply_t train PolicyPart (policy_head c) x2 ;;
    softmax1 q.
End Forward.
(** their shapes *)
Definition shape_ev (train : bool) (b : part) (i : nat) (l : layer) (sh : list nat) : res (list nat) := layer_shape l sh.
Definition forward_t_shape (c : consts) (sh : list nat) : res (list nat * list nat) := forward_t (list nat) shape_ev (layer_shape Softmax) c sh false.
Definition forward_train_shape (c : consts) (sh : list nat) : res (list nat * list nat) := forward_train (list nat) shape_ev c sh true.
Definition forward_policy_shape (c : consts) (sh : list nat) : res (list nat) := forward_policy (list nat) shape_ev (layer_shape Softmax) c sh false.
