(** * Prop_Json: C66-C68 — saved games. *)
From Coq Require Import Permutation.
From Verif Require Import BgSpec GameFacts JsonSpec VersusSpec VersusApi VersusStuck VersusApi2 JsonApi Witness.

(** C66.  What is written as text is read back as the same value. *)
Theorem C66_text : forall v, writable v -> (depth v < 128)%nat -> parse (print 0 v) = Some v.
Proof. exact C66_text_lemma. Qed.
Print Assumptions C66_text.
(** C66.  Different values are written as different texts. *)
Theorem C66_injective : forall v w, writable v -> writable w -> (depth v < 128)%nat -> (depth w < 128)%nat -> print 0 v = print 0 w -> v = w.
Proof. exact C66_injective_lemma. Qed.
Print Assumptions C66_injective.
(** C66.  A game of Tic-Tac-Toe that is saved and loaded is the same game: any id, any turns, any
    values of the Rust types. *)
Theorem C66_tictactoe : forall g, typed_game typed_ttt g -> load_game rd_ttt (print 0 (wr_game wr_ttt g)) = Some g.
Proof. exact C66_tictactoe_lemma. Qed.
Print Assumptions C66_tictactoe.
(** C66.  The same for Backgammon. *)
Theorem C66_backgammon : forall g, typed_game typed_bg g -> load_game rd_bg (print 0 (wr_game wr_bg g)) = Some g.
Proof. exact C66_backgammon_lemma. Qed.
Print Assumptions C66_backgammon.
Definition toy_ttt : sgame ttt := mkSg (txt "a""b") ARandom AModel [mkSt (Some (3, 255)) [mkTtt 1 [-1; 0; 0; 0; 0; 0; 0; 0; 127] (2 ^ 64 - 1)] AMcts; mkSt None [] ARandom] ANone ttt_new.
Example C66_toy : typed_game typed_ttt toy_ttt.
Proof. repeat constructor; cbn; unfold is_i8, is_u8, is_u64; lia. Qed.
Example C66_toy_bg : typed_game typed_bg (mkSg [] AMcts AMcts [] AMcts bg_new).
Proof. repeat constructor; cbn; unfold is_i8, is_u8, is_u64; lia. Qed.
(** a file, line by line *)
Example C66_file : print 0 (wr_turn wr_ttt (mkSt (Some (3, 4)) [] AMcts)) = List.concat (List.map (fun l => txt l ++ [NL])
  ["{"; "  ""roll"": ["; "    3,"; "    4"; "  ],"; "  ""action"": [],"; "  ""player"": ""Mcts"""]%string) ++ txt "}".
Proof. reflexivity. Qed.

(** C67.  Loading accepts only values of the Rust types, and what was loaded can be saved and loaded
    again without change. *)
Theorem C67_tictactoe : forall t g, load_game rd_ttt t = Some g -> typed_game typed_ttt g /\ load_game rd_ttt (print 0 (wr_game wr_ttt g)) = Some g.
Proof. exact C67_tictactoe_lemma. Qed.
Print Assumptions C67_tictactoe.
Theorem C67_backgammon : forall t g, load_game rd_bg t = Some g -> typed_game typed_bg g /\ load_game rd_bg (print 0 (wr_game wr_bg g)) = Some g.
Proof. exact C67_backgammon_lemma. Qed.
Print Assumptions C67_backgammon.
(** C67.  The order of the fields does not matter and unknown fields are ignored. *)
Theorem C67_field_order : forall T (rd : json -> option T) ms xs ms', Permutation ms' (ms ++ xs) ->
  (forall e, In e xs -> ~ In (fst e) (map txt ["id"; "player1"; "player2"; "turns"; "winner"; "initial_state"]%string)) -> rd_game rd (JObj ms') = rd_game rd (JObj ms).
Proof. exact C67_field_order_lemma. Qed.
Print Assumptions C67_field_order.
(** C67.  A game object without one of its fields, or with one twice, is not loaded. *)
Theorem C67_missing : forall T (rd : json -> option T) ms k, In k (map txt ["id"; "player1"; "player2"; "turns"; "winner"; "initial_state"]%string) ->
  count_occ (list_eq_dec ascii_dec) (map fst ms) k <> 1%nat -> rd_game rd (JObj ms) = None.
Proof. exact C67_missing_lemma. Qed.
Print Assumptions C67_missing.
(** C67.  After the value and a line break only blanks may follow. *)
Theorem C67_trailing : forall v t, writable v -> (depth v < 128)%nat ->
  let whole := parse (print 0 v ++ ascii_of_nat 10 :: t) in
  ((forall c, In c t -> In c (map ascii_of_nat [32; 10; 13; 9]%nat)) -> whole = Some v) /\ (~ (forall c, In c t -> In c (map ascii_of_nat [32; 10; 13; 9]%nat)) -> whole = None).
Proof. exact C67_trailing_lemma. Qed.
Print Assumptions C67_trailing.
(** C67, refuted.  Loading does not check that a position can occur: an empty board with dice
    showing zero, player 5 to move, is loaded. *)
Theorem C67_unchecked_refuted : ~ (forall t g, load_game rd_bg t = Some g -> bg_pos (sg_init g)).
Proof.
  intros H. set (g := mkSg [] AMcts AMcts [] AMcts (mkBg (mkBoard (repeat 0 24) 0 0 0 0) (0, 0) 5 false 0)).
  assert (HT : typed_game typed_bg g) by (repeat constructor; cbn; unfold is_i8, is_u8, is_u64; lia).
  destruct (H _ g (C66_backgammon g HT)) as (_ & _ & [[H1 _] _]). cbn in H1. lia.
Qed.
Print Assumptions C67_unchecked_refuted.
Example C67_other_texts :
  (exists g, load_game rd_ttt (txt "[""x"",""Model"",{""None"":null},[],""Random"",{""id"":0,""why"":[1e3,-0.5],""board"":[0,0,0,0,0,0,0,0,-128],""player"":-1}]") = Some g)
  /\ load_game rd_ttt (txt "[""x"",""Model"",""None"",[],""Random"",{""id"":0,""board"":[0,0,0,0,0,0,0,0,128],""player"":-1}]") = None
  /\ load_game rd_ttt (txt "[""x"",""Model"",""None"",[],""Random"",{""id"":-1,""board"":[0,0,0,0,0,0,0,0,0],""player"":-1}]") = None
  /\ load_game rd_ttt (txt "[""x"",""model"",""None"",[],""Random"",{""id"":0,""board"":[0,0,0,0,0,0,0,0,0],""player"":-1}]") = None
  /\ load_game rd_ttt (txt "[""x"",""Model"",""None"",[],""Random"",{""id"":0,""board"":[0,0,0,0,0,0,0,0],""player"":-1}]") = None
  /\ load_game rd_ttt (txt "[""x"",""Model"",""None"",[],""Random"",{""id"":0,""board"":[0,0,0,0,0,0,0,0,0],""player"":-1}] x") = None.
Proof. split; [eexists; reflexivity|repeat split]. Qed.

(** C68.  Games with different ids, saved into a directory without files of these names: reading the
    directory in any order gives these games and those that were there, each once. *)
Theorem C68_tictactoe : forall gs d old, NoDup (map sg_id gs) -> (forall g e, In g gs -> In e d -> fst e <> file_name g) -> Forall (typed_game typed_ttt) gs ->
  load_all rd_ttt d = Some old -> forall d', Permutation d' (save_all wr_ttt gs d) -> exists l, load_all rd_ttt d' = Some l /\ Permutation l (gs ++ old).
Proof. exact C68_tictactoe_lemma. Qed.
Print Assumptions C68_tictactoe.
Theorem C68_backgammon : forall gs d old, NoDup (map sg_id gs) -> (forall g e, In g gs -> In e d -> fst e <> file_name g) -> Forall (typed_game typed_bg) gs ->
  load_all rd_bg d = Some old -> forall d', Permutation d' (save_all wr_bg gs d) -> exists l, load_all rd_bg d' = Some l /\ Permutation l (gs ++ old).
Proof. exact C68_backgammon_lemma. Qed.
Print Assumptions C68_backgammon.
(** C68.  Of two games with the same id only the one saved last is kept. *)
Theorem C68_same_id : forall T (wr : T -> json) g h d, sg_id g = sg_id h -> save_all wr [g; h] d = save_all wr [h] d.
Proof. exact C68_same_id_lemma. Qed.
Print Assumptions C68_same_id.
(** C68.  Loading a directory fails exactly when one of its files named .json does not load. *)
Theorem C68_bad_file : forall T (rd : json -> option T) d, load_all rd d = None <-> exists n t, In (n, Some t) d /\ ends_json n = true /\ load_game rd t = None.
Proof. exact C68_bad_file_lemma. Qed.
Print Assumptions C68_bad_file.
(** C68.  The saved form of a game of a match has the game's fields. *)
Theorem C68_fields : forall G (name : Z -> text) (g : vgame G),
  sg_id (saved name g) = name (vg_id g) /\ sg_p1 (saved name g) = vg_p1 g /\ sg_p2 (saved name g) = vg_p2 g /\ sg_winner (saved name g) = vg_winner g
  /\ sg_init (saved name g) = vg_init g /\ Forall2 (fun t u => st_roll t = t_roll G u /\ st_action t = t_action G u /\ st_player t = t_player G u) (sg_turns (saved name g)) (vg_turns g).
Proof. exact C68_fields_lemma. Qed.
Print Assumptions C68_fields.
(** C68.  All 400 games of a match come back from the directory the command saves them to. *)
Theorem C68_ttt_match : forall pr tsum dirichlet unif tpow cfg hash order p1 p2, setting (ttt_game pr) ttt_pos tsum dirichlet unif tpow cfg hash order p1 p2 ->
  forall ln nanoid fuel r res r', play ln tsum dirichlet unif tpow nanoid cfg hash order p1 p2 fuel r = Ok (res, r') ->
  forall name d old d', NoDup (map (fun g => name (vg_id g)) (r_games res)) -> (forall g e, In g (r_games res) -> In e d -> fst e <> name (vg_id g) ++ txt ".json") ->
  load_all rd_ttt d = Some old -> Permutation d' (save_all wr_ttt (map (saved name) (r_games res)) d) ->
  exists l, load_all rd_ttt d' = Some l /\ Permutation l (map (saved name) (r_games res) ++ old) /\ length l = (400 + length old)%nat.
Proof. exact C68_ttt_match_lemma. Qed.
Print Assumptions C68_ttt_match.
Theorem C68_bg_match : forall pr tsum dirichlet unif tpow cfg hash order p1 p2, setting (bg_game pr) bg_pos tsum dirichlet unif tpow cfg hash order p1 p2 ->
  forall ln nanoid fuel r res r', play ln tsum dirichlet unif tpow nanoid cfg hash order p1 p2 fuel r = Ok (res, r') ->
  forall name d old d', NoDup (map (fun g => name (vg_id g)) (r_games res)) -> (forall g e, In g (r_games res) -> In e d -> fst e <> name (vg_id g) ++ txt ".json") ->
  load_all rd_bg d = Some old -> Permutation d' (save_all wr_bg (map (saved name) (r_games res)) d) ->
  exists l, load_all rd_bg d' = Some l /\ Permutation l (map (saved name) (r_games res) ++ old) /\ length l = (400 + length old)%nat.
Proof. exact C68_bg_match_lemma. Qed.
Print Assumptions C68_bg_match.
(** such a match, into an empty directory *)
Example C68_run : forall pr r, exists res r', play (G := ttt_game pr) (fun x => x) tsum0 dir0 unif0 pow1 count_id (cfg0 1 1) hash0 order2 random_player random_player 400 r = Ok (res, r')
  /\ exists l, load_all rd_ttt (save_all wr_ttt (map (saved tally) (r_games res)) []) = Some l /\ Permutation l (map (saved tally) (r_games res)) /\ length l = 400%nat.
Proof.
  intros pr r. destruct (count_match pr r) as (res & r' & E & HN). exists res, r'. split; [exact E|].
  destruct (C68_ttt_match pr _ _ _ _ _ _ _ _ _ (random_setting _ _ (ttt_match pr)) _ _ _ _ _ _ E tally [] [] _ HN (fun g e _ H => match H with end) eq_refl (Permutation_refl _)) as (l & El & HP & HL).
  exists l. rewrite app_nil_r in HP. auto.
Qed.
(** a directory with other entries *)
Example C68_dir : let d := [(txt "notes.txt", Some (txt "hello")); (txt "old.json", None); (txt "x.json", Some (print 0 (wr_game wr_ttt toy_ttt)))] in
  load_all rd_ttt d = Some [toy_ttt] /\ load_all rd_ttt ((txt ".json", Some (txt "{}")) :: d) = None.
Proof. split; reflexivity. Qed.
