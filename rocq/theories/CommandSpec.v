(** * CommandSpec: when the model files can be read; models no function of /repo. *)
From Verif Require Import Base NetModel.
(** the model file given, or else best_model.ot if it exists, can be read *)
Definition readable (path best : option (option store)) : Prop := match path with Some f => f <> None | None => best <> Some None end.
