(** * Base: panics as data, machine integers, array access, randomness.

    These are the Rust-language primitives the rest of the model is written in;
    they model no function of /repo themselves. *)
From Coq Require Export ZArith List Bool Lia.
Export ListNotations.
Global Open Scope Z_scope.

(** Cargo profile: in a debug (and test) build integer overflow panics, in a
    release build it wraps.  Cargo.toml sets no [overflow-checks]. *)
Inductive profile := Debug | Release.

(** Why a computation panicked.  [PFuel] is not a Rust panic: it marks a loop or
    recursion of the model that did not finish within the fuel given to it. *)
Inductive panic := POverflow | PIndex | PAssert | PUnwrap | PExplicit | PFuel.

Inductive res (A : Type) := Ok (a : A) | Panic (p : panic).
Arguments Ok {A} a.
Arguments Panic {A} p.

Definition bind {A B} (r : res A) (k : A -> res B) : res B :=
  match r with Ok a => k a | Panic p => Panic p end.

Notation "x <- e ;; k" := (bind e (fun x => k))
  (at level 61, e at next level, right associativity).
Notation "' p <- e ;; k" := (bind e (fun p => k))
  (at level 61, p pattern, e at next level, right associativity).

Definition is_ok {A} (r : res A) : Prop := exists a, r = Ok a.

(** [for x in l { acc = f(acc, x) }] with early exit on panic. *)
Fixpoint mfold {A B} (f : B -> A -> res B) (l : list A) (acc : B) : res B :=
  match l with
  | [] => Ok acc
  | x :: l' => acc' <- f acc x ;; mfold f l' acc'
  end.

(** [l.iter().map(f).collect()] where [f] may panic. *)
Fixpoint mmap {A B} (f : A -> res B) (l : list A) : res (list B) :=
  match l with
  | [] => Ok []
  | x :: l' => y <- f x ;; ys <- mmap f l' ;; Ok (y :: ys)
  end.

(** ** Machine integers, represented by [Z] *)
Definition in_i8 (z : Z) : bool := (-128 <=? z) && (z <=? 127).
Definition in_u8 (z : Z) : bool := (0 <=? z) && (z <=? 255).
Definition wrap_i8 (z : Z) : Z := (z + 128) mod 256 - 128.
Definition wrap_u8 (z : Z) : Z := z mod 256.

(** The value of an i8 (u8) operation whose mathematical result is [z]. *)
Definition i8 (pr : profile) (z : Z) : res Z :=
  if in_i8 z then Ok z
  else match pr with Debug => Panic POverflow | Release => Ok (wrap_i8 z) end.
Definition u8 (pr : profile) (z : Z) : res Z :=
  if in_u8 z then Ok z
  else match pr with Debug => Panic POverflow | Release => Ok (wrap_u8 z) end.

(** ** Arrays.  A negative i8 cast [as usize] is at least 2^63, hence out of
    bounds of every array of the program. *)
Definition idx {A} (l : list A) (i : Z) : res A :=
  if i <? 0 then Panic PIndex
  else match nth_error l (Z.to_nat i) with Some x => Ok x | None => Panic PIndex end.

Fixpoint set_nth {A} (l : list A) (n : nat) (v : A) : list A :=
  match l, n with
  | [], _ => []
  | _ :: l', O => v :: l'
  | x :: l', S n' => x :: set_nth l' n' v
  end.

(** [l[i] = v] *)
Definition upd {A} (l : list A) (i : Z) (v : A) : res (list A) :=
  if i <? 0 then Panic PIndex
  else if (Z.to_nat i <? length l)%nat then Ok (set_nth l (Z.to_nat i) v)
  else Panic PIndex.

(** [l[a..b].iter().sum::<i8>()]: the slice panics unless a <= b <= len. *)
Definition slice {A} (l : list A) (a b : Z) : res (list A) :=
  if (0 <=? a) && (a <=? b) && (b <=? Z.of_nat (length l))
  then Ok (firstn (Z.to_nat (b - a)) (skipn (Z.to_nat a) l))
  else Panic PIndex.
Definition sum_i8 (pr : profile) (l : list Z) : res Z :=
  mfold (fun acc x => i8 pr (acc + x)) l 0.

(** Range [a..b] of i8 values. *)
Definition range (a b : Z) : list Z :=
  map (fun k => a + Z.of_nat k) (seq 0 (Z.to_nat (b - a))).

(** ** Randomness: an arbitrary infinite stream of naturals, read left to right.
    [rand::thread_rng()] is modelled by one such stream; every theorem quantifies
    over it. *)
Record rng := mkRng { src : nat -> N; pos : nat }.
Definition draw (r : rng) : N * rng :=
  (src r (pos r), mkRng (src r) (S (pos r))).
(** [rng.gen_range(lo..=hi)]: some value of the interval, decided by the stream. *)
Definition gen_range (lo hi : Z) (r : rng) : Z * rng :=
  let (x, r') := draw r in (lo + Z.of_N x mod (hi - lo + 1), r').
(** [slice.choose(&mut rng)] *)
Definition choose {A} (l : list A) (r : rng) : option A * rng :=
  match l with
  | [] => (None, r)
  | _ => let (k, r') := gen_range 0 (Z.of_nat (length l) - 1) r in
         (nth_error l (Z.to_nat k), r')
  end.
