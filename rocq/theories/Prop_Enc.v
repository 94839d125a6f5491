(** * Prop_Enc: property theorems for the action codec (C07, C16-C19).
    Model: EncModel.v (both copies).  [step_by] (EncApi.v) describes one decoded step. *)
From Verif Require Import Base BgModel BgSpec BgTurn BgReach BgWitness EncModel EncProof EncApi.
From Coq Require Import Permutation.

(** C07: exchanging the two dice changes neither the returned moves nor either codec. *)
Theorem C07_roll_order : forall pr b r0 r1 p sp i acts c,
  bg_valid_moves pr (mkBg b (r1, r0) p sp i) = bg_valid_moves pr (mkBg b (r0, r1) p sp i)
  /\ encode_trait pr (mkBg b (r1, r0) p sp i) acts = encode_trait pr (mkBg b (r0, r1) p sp i) acts
  /\ decode_trait pr (mkBg b (r1, r0) p sp i) c = decode_trait pr (mkBg b (r0, r1) p sp i) c
  /\ encode_inherent pr (mkBg b (r1, r0) p sp i) acts = encode_inherent pr (mkBg b (r0, r1) p sp i) acts
  /\ decode_inherent pr (mkBg b (r1, r0) p sp i) c = decode_inherent pr (mkBg b (r0, r1) p sp i) c.
Proof. exact C07_roll_order_lemma. Qed.
Print Assumptions C07_roll_order.

(** test: the order matters for the raw roll, i.e. the two states differ and have moves *)
Example C07_case : bg_valid_moves Debug (mkBg initial_board (6, 1) (-1) false 0) = bg_valid_moves Debug (mkBg initial_board (1, 6) (-1) false 0)
  /\ bg_valid_moves Debug (mkBg initial_board (1, 6) (-1) false 0) <> Ok [].
Proof. split; [vm_compute; reflexivity|vm_compute; discriminate]. Qed.

(** C16: decode(encode(a)) = a for every returned move, with both copies of the codec. *)
Theorem C16_round_trip : forall pr st s mvs a,
  WF (bgboard st) -> rolled (roll st) -> mover st s -> bg_valid_moves pr st = Ok mvs -> In a mvs ->
  (exists c, encode_trait pr st a = Ok c /\ decode_trait pr st c = Ok a)
  /\ (exists c, encode_inherent pr st a = Ok c /\ decode_inherent pr st c = Ok a).
Proof. exact C16_round_trip_lemma. Qed.
Print Assumptions C16_round_trip.

(** C16: the empty (skip) move has its own code and decodes to itself. *)
Theorem C16_empty_move : forall pr st, encode_trait pr st [] = Ok 1351 /\ decode_trait pr st 1351 = Ok [].
Proof. exact C16_empty_move_lemma. Qed.
Print Assumptions C16_empty_move.

Example C16_hyps : WF (bgboard st_illegal2) /\ rolled (roll st_illegal2) /\ mover st_illegal2 P2
  /\ bg_valid_moves Debug st_illegal2 = Ok mvs_illegal2 /\ In [(21, -1); (18, 23)] mvs_illegal2
  /\ encode_trait Debug st_illegal2 [(21, -1); (18, 23)] = Ok 1165
  /\ decode_trait Debug st_illegal2 1165 = Ok [(21, -1); (18, 23)].
Proof.
  split; [apply wfb_spec; reflexivity|]. split; [apply (game_rolled Debug), game_illegal2|]. split; [reflexivity|].
  split; [apply moves_illegal2|]. split; [cbn; tauto|]. split; reflexivity.
Qed.

(** C17: codes of returned moves are below 1351 (so below ACTION_SPACE_SIZE = 1352 and
    different from the code of the empty move) and pairwise different. *)
Theorem C17_codes : forall pr st s mvs,
  WF (bgboard st) -> rolled (roll st) -> mover st s -> bg_valid_moves pr st = Ok mvs ->
  (forall a, In a mvs -> exists c, encode_trait pr st a = Ok c /\ 0 <= c < 1351)
  /\ (forall a a' c, In a mvs -> In a' mvs -> encode_trait pr st a = Ok c -> encode_trait pr st a' = Ok c -> a = a')
  /\ NoDup (map (encode_trait pr st) mvs).
Proof. exact C17_codes_lemma. Qed.
Print Assumptions C17_codes.

(** C17: over all move lists of valid moves plus the skip move, only the skip move has code 1351. *)
Theorem C17_empty_code_unique : forall pr st s mvs a,
  WF (bgboard st) -> rolled (roll st) -> mover st s -> bg_valid_moves pr st = Ok mvs -> In a ([] :: mvs) ->
  (encode_trait pr st a = Ok 1351 <-> a = []).
Proof. exact C17_empty_code_unique_lemma. Qed.
Print Assumptions C17_empty_code_unique.

(** C18: every code below 1351 whose first source digit is not the unused value 25 decodes
    to one or two steps, each starting on the bar or a point and using its own die; 1351
    decodes to the empty move. *)
Theorem C18_decode_total : forall pr st s c, rolled (roll st) -> mover st s -> 0 <= c < 1351 ->
  (c mod 676) mod 26 <> 25 ->
  exists d e, Permutation [d; e] [fst (roll st); snd (roll st)]
    /\ ((exists a, decode_trait pr st c = Ok [a] /\ step_by s d a)
        \/ (exists a b, decode_trait pr st c = Ok [a; b] /\ step_by s d a /\ step_by s e b)).
Proof. exact C18_decode_total_lemma. Qed.
Print Assumptions C18_decode_total.

(** C18: the remaining codes decode normally but to a step whose source is 25, which is
    neither a point nor the bar. *)
Theorem C18_bad_codes : forall pr st s c, rolled (roll st) -> mover st s -> 0 <= c < 1351 ->
  (c mod 676) mod 26 = 25 ->
  exists a rest, decode_trait pr st c = Ok (a :: rest) /\ fst a = 25 /\ (length rest <= 1)%nat.
Proof. exact C18_bad_codes_lemma. Qed.
Print Assumptions C18_bad_codes.

(** both kinds of code exist: 27 = bar-free two-step code, 25 = unused digit *)
Example C18_hyps : (27 mod 676) mod 26 <> 25 /\ (25 mod 676) mod 26 = 25
  /\ decode_trait Debug st_illegal2 27 = Ok [(1, 6); (1, 5)]
  /\ decode_trait Debug st_illegal2 25 = Ok [(25, -1); (0, 4)].
Proof. split; [discriminate|]. split; [reflexivity|]. split; reflexivity. Qed.

(** C19: the two copies agree on all states, move lists of any length, and codes. *)
Theorem C19_codecs_agree : forall pr st acts c,
  encode_trait pr st acts = encode_inherent pr st acts /\ decode_trait pr st c = decode_inherent pr st c.
Proof. exact C19_codecs_agree_lemma. Qed.
Print Assumptions C19_codecs_agree.

(** test: the shared behaviour includes the panic on three or more steps *)
Example C19_three : forall pr st a b c l, encode_trait pr st (a :: b :: c :: l) = Panic PAssert.
Proof. reflexivity. Qed.
