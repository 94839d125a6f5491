(** * ConfigSpec: names up to the case of ASCII letters; models no function of /repo. *)
From Coq Require Import String Ascii NArith.
Local Open Scope N_scope.
(** the same character, or the upper case form of a letter *)
Definition nocase (a lower : ascii) : Prop := a = lower \/ (N_of_ascii a + 32 = N_of_ascii lower /\ 97 <= N_of_ascii lower <= 122).
Fixpoint nocases (s lower : string) : Prop :=
  match s, lower with
  | EmptyString, EmptyString => True
  | String a s', String c l' => nocase a c /\ nocases s' l'
  | _, _ => False
  end.
