(** * F32: IEEE-754 single and double precision, as specified by the standard library's
    [SpecFloat] (round to nearest even; no NaN payloads).  The Rust language primitives
    [f32]/[f64] [+], [-], [*], [/], [sqrt], [partial_cmp], [==], [as]; models no function of
    /repo itself.  Definitions only. *)
From Coq Require Export ZArith Floats.SpecFloat.
From Verif Require Export Base.

Definition f32 := spec_float.
Definition f64 := spec_float.
Definition fadd : f32 -> f32 -> f32 := SFadd 24 128.
Definition fsub : f32 -> f32 -> f32 := SFsub 24 128.
Definition fmul : f32 -> f32 -> f32 := SFmul 24 128.
Definition fdiv : f32 -> f32 -> f32 := SFdiv 24 128.
Definition fsqrt : f32 -> f32 := SFsqrt 24 128.
Definition f32_of_Z (z : Z) : f32 := binary_normalize 24 128 z 0 false.
Definition f0 : f32 := f32_of_Z 0.
Definition f1 : f32 := f32_of_Z 1.
Definition fm1 : f32 := f32_of_Z (-1).
Definition finf : f32 := S754_infinity false.

Definition dadd : f64 -> f64 -> f64 := SFadd 53 1024.
Definition ddiv : f64 -> f64 -> f64 := SFdiv 53 1024.
Definition f64_of_Z (z : Z) : f64 := binary_normalize 53 1024 z 0 false.

(** [x as f64] for an [f32]: exact *)
Definition f64_of_f32 (x : f32) : f64 :=
  match x with S754_finite s m e => binary_round 53 1024 s m e | _ => x end.

(** [partial_cmp(..).unwrap_or(Ordering::Equal)] *)
Definition fcmp (a b : spec_float) : comparison :=
  match SFcompare a b with Some c => c | None => Eq end.

(** [Iterator::max_by]: a left fold keeping the later element unless the earlier one
    compares [Greater] *)
Fixpoint max_by_from {A} (cmp : A -> A -> comparison) (best : A) (l : list A) : A :=
  match l with
  | [] => best
  | x :: l' => max_by_from cmp (match cmp best x with Gt => best | _ => x end) l'
  end.
Definition max_by {A} (cmp : A -> A -> comparison) (l : list A) : option A :=
  match l with [] => None | x :: l' => Some (max_by_from cmp x l') end.
