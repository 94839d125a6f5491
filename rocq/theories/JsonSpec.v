(** * JsonSpec: the values of the Rust types that are written to and read from files. *)
From Verif Require Export JsonModel.

Definition is_i8 (z : Z) : Prop := -128 <= z <= 127.
Definition is_u8 (z : Z) : Prop := 0 <= z <= 255.
Definition is_u64 (z : Z) : Prop := 0 <= z < 2 ^ 64.
Definition typed_ttt (s : ttt) : Prop := is_i8 (tplayer s) /\ length (tboard s) = 9%nat /\ Forall is_i8 (tboard s) /\ is_u64 (tid s).
Definition typed_board (b : board) : Prop := length (pts b) = 24%nat /\ Forall is_i8 (pts b) /\ is_u8 (hit1 b) /\ is_u8 (hit2 b) /\ is_u8 (col1 b) /\ is_u8 (col2 b).
Definition typed_bg (s : bg) : Prop := typed_board (bgboard s) /\ is_u8 (fst (roll s)) /\ is_u8 (snd (roll s)) /\ is_i8 (player s) /\ is_u64 (bgid s).
Definition typed_turn {T} (ok : T -> Prop) (t : sturn T) : Prop :=
  match st_roll t with Some (a, b) => is_u8 a /\ is_u8 b | None => True end /\ Forall ok (st_action t).
Definition typed_game {T} (ok : T -> Prop) (g : sgame T) : Prop := Forall (typed_turn ok) (sg_turns g) /\ ok (sg_init g).

(** JSON values that the writer can produce: whole numbers of the 64 bit types only *)
Inductive writable : json -> Prop :=
| w_null : writable JNull
| w_bool b : writable (JBool b)
| w_int z : - 2 ^ 63 <= z < 2 ^ 64 -> writable (JInt z)
| w_str s : writable (JStr s)
| w_arr vs : Forall writable vs -> writable (JArr vs)
| w_obj ms : Forall (fun m => writable (snd m)) ms -> writable (JObj ms).
(** how deeply arrays and objects are nested *)
Fixpoint depth (v : json) : nat :=
  match v with
  | JArr vs => S (fold_right (fun w m => Nat.max (depth w) m) 0%nat vs)
  | JObj ms => S (fold_right (fun w m => Nat.max (depth (snd w)) m) 0%nat ms)
  | _ => 0%nat
  end.
