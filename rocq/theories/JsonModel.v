(** * JsonModel: saved games.
    src/versus.rs:17-35, 54-73, 107-122 (VS), src/backgammon/backgammon_logic.rs:10, 53-60 (BL),
    src/tictactoe/mod.rs:5-13 (TT).

    The crates serde and serde_json are not part of the repository; what follows is their
    documented behaviour for these types: structs become objects with the fields in the order of
    declaration, tuples and arrays become arrays, unit variants strings, [None] null.  When
    reading, a struct may also be an array of its fields, the order of fields is free, unknown
    fields are skipped, a field given twice or missing is an error (a missing [Option] is [None]),
    and a unit variant may be an object with null.  A text is a list of bytes.  Left out: the check
    that bytes from 128 on are UTF-8, the value of numbers with a fraction or an exponent (no field
    takes one), the contents of errors; the nesting limit also holds inside skipped fields. *)
From Coq Require Export String Ascii.
From Verif Require Export Base BgModel TttModel GameModel VersusModel.
Local Open Scope Z_scope.

Notation text := (list ascii).
Definition txt (s : string) : text := list_ascii_of_string s.
Definition is (a b : ascii) : bool := Ascii.eqb a b.
Definition code (c : ascii) : Z := Z.of_N (N_of_ascii c).
Definition chr (z : Z) : ascii := ascii_of_N (Z.to_N z).

(** values; [JInt] is a whole number of type u64 or a negative one of type i64, [JFloat] any other *)
Inductive json := JNull | JBool (b : bool) | JInt (z : Z) | JFloat | JStr (s : text) | JArr (vs : list json) | JObj (ms : list (text * json)).

(** ** writing: [to_string_pretty] (serde_json, PrettyFormatter with two spaces) *)
Definition NL : ascii := chr 10.
Definition QUOTE : ascii := chr 34.
Definition BSLASH : ascii := chr 92.
Definition hexd (z : Z) : ascii := chr (if z <? 10 then 48 + z else 87 + z).
Definition esc (c : ascii) : text :=
  let z := code c in
  if z =? 34 then [BSLASH; QUOTE] else if z =? 92 then [BSLASH; BSLASH]
  else if z =? 8 then [BSLASH; "b"%char] else if z =? 9 then [BSLASH; "t"%char] else if z =? 10 then [BSLASH; "n"%char]
  else if z =? 12 then [BSLASH; "f"%char] else if z =? 13 then [BSLASH; "r"%char]
  else if z <? 32 then [BSLASH; "u"%char; "0"%char; "0"%char; hexd (z / 16); hexd (z mod 16)] else [c].
Definition print_str (s : text) : text := QUOTE :: flat_map esc s ++ [QUOTE].
Fixpoint digits (fuel : nat) (z : Z) : text :=
  match fuel with O => [] | S f => (if z <? 10 then [] else digits f (z / 10)) ++ [chr (48 + z mod 10)] end.
Definition print_int (z : Z) : text := if z <? 0 then "-"%char :: digits 20 (- z) else digits 20 z.
Definition indent (n : nat) : text := concat (repeat (txt "  ") n).
(** the items of an array or object, one on each line *)
Fixpoint lines (n : nat) (ts : list text) : text :=
  match ts with [] => [] | [t] => NL :: indent n ++ t | t :: ts' => NL :: indent n ++ t ++ ","%char :: lines n ts' end.
Fixpoint print (n : nat) (v : json) : text :=
  match v with
  | JNull => txt "null"
  | JBool b => if b then txt "true" else txt "false"
  | JInt z => print_int z
  | JFloat => txt "0.0"
  | JStr s => print_str s
  | JArr [] => txt "[]"
  | JArr vs => "["%char :: lines (S n) (map (print (S n)) vs) ++ NL :: indent n ++ ["]"%char]
  | JObj [] => txt "{}"
  | JObj ms => "{"%char :: lines (S n) (map (fun m => print_str (fst m) ++ txt ": " ++ print (S n) (snd m)) ms) ++ NL :: indent n ++ ["}"%char]
  end.

(** ** reading: [from_reader] (serde_json) *)
Definition ws (c : ascii) : bool := is c " "%char || is c NL || is c (chr 9) || is c (chr 13).
Fixpoint skip (l : text) : text := match l with c :: r => if ws c then skip r else l | [] => [] end.
Definition digit (c : ascii) : option Z := let z := code c - 48 in if (0 <=? z) && (z <=? 9) then Some z else None.
Definition hex (c : ascii) : option Z :=
  match digit c with
  | Some z => Some z
  | None => let z := code c in if (97 <=? z) && (z <=? 102) then Some (z - 87) else if (65 <=? z) && (z <=? 70) then Some (z - 55) else None
  end.
Definition hex4 (a b c d : ascii) : option Z :=
  match hex a, hex b, hex c, hex d with Some w, Some x, Some y, Some z => Some (((w * 16 + x) * 16 + y) * 16 + z) | _, _, _, _ => None end.
Definition utf8 (z : Z) : text :=
  if z <? 128 then [chr z] else if z <? 2048 then [chr (192 + z / 64); chr (128 + z mod 64)]
  else if z <? 65536 then [chr (224 + z / 4096); chr (128 + z / 64 mod 64); chr (128 + z mod 64)]
  else [chr (240 + z / 262144); chr (128 + z / 4096 mod 64); chr (128 + z / 64 mod 64); chr (128 + z mod 64)].
Definition unesc (c : ascii) : option ascii :=
  if is c QUOTE then Some QUOTE else if is c BSLASH then Some BSLASH else if is c "/"%char then Some "/"%char
  else if is c "b"%char then Some (chr 8) else if is c "f"%char then Some (chr 12) else if is c "n"%char then Some (chr 10)
  else if is c "r"%char then Some (chr 13) else if is c "t"%char then Some (chr 9) else None.
Definition cons_fst (t : text) (o : option (text * text)) : option (text * text) := match o with Some (s, r) => Some (t ++ s, r) | None => None end.
(** the rest of a string after the opening quote *)
Fixpoint str_body (l : text) : option (text * text) :=
  match l with
  | [] => None
  | c :: l1 =>
    if is c QUOTE then Some ([], l1)
    else if is c BSLASH then
      match l1 with
      | [] => None
      | u :: l2 =>
        if is u "u"%char then
          match l2 with
          | a :: b :: c :: d :: l3 =>
            match hex4 a b c d with
            | None => None
            | Some z =>
              if (55296 <=? z) && (z <? 56320) then
                match l3 with
                | x :: y :: a' :: b' :: c' :: d' :: l4 =>
                  if is x BSLASH && is y "u"%char then
                    match hex4 a' b' c' d' with
                    | Some z' => if (56320 <=? z') && (z' <? 57344) then cons_fst (utf8 (65536 + (z - 55296) * 1024 + (z' - 56320))) (str_body l4) else None
                    | None => None
                    end
                  else None
                | _ => None
                end
              else if (56320 <=? z) && (z <? 57344) then None
              else cons_fst (utf8 z) (str_body l3)
            end
          | _ => None
          end
        else match unesc u with Some e => cons_fst [e] (str_body l2) | None => None end
      end
    else if code c <? 32 then None
    else cons_fst [c] (str_body l1)
  end.
Fixpoint span (l : text) : list Z * text :=
  match l with [] => ([], []) | c :: r => match digit c with Some z => let (ds, r') := span r in (z :: ds, r') | None => ([], l) end end.
Definition num (ds : list Z) : Z := fold_left (fun a d => a * 10 + d) ds 0.
(** fraction and exponent after the whole part *)
Definition frac (l : text) : option (bool * text) :=
  match l with c :: r => if is c "."%char then match span r with ([], _) => None | (_, r') => Some (true, r') end else Some (false, l) | [] => Some (false, []) end.
Definition expo (l : text) : option (bool * text) :=
  match l with
  | c :: r => if is c "e"%char || is c "E"%char then
      let r1 := match r with s :: r' => if is s "+"%char || is s "-"%char then r' else r | [] => r end in
      match span r1 with ([], _) => None | (_, r') => Some (true, r') end
    else Some (false, l)
  | [] => Some (false, [])
  end.
Definition number (neg : bool) (l : text) : option (json * text) :=
  match span l with
  | ([], _) => None
  | (d :: ds, r) =>
    if (d =? 0) && negb (match ds with [] => true | _ => false end) then None
    else match frac r with
         | None => None
         | Some (b1, r1) =>
           match expo r1 with
           | None => None
           | Some (b2, r2) =>
             let n := num (d :: ds) in
             let whole := negb (b1 || b2) && (if neg then (0 <? n) && (n <=? 2 ^ 63) else n <? 2 ^ 64) in
             Some (if whole then JInt (if neg then - n else n) else JFloat, r2)
           end
         end
  end.
Fixpoint lit (p : text) (v : json) (l : text) : option (json * text) :=
  match p, l with [], _ => Some (v, l) | a :: p', b :: l' => if is a b then lit p' v l' else None | _, [] => None end.
(** elements after the opening bracket, if there is one at least; [fuel] counts the elements *)
Fixpoint items (p : text -> option (json * text)) (fuel : nat) (l : text) : option (list json * text) :=
  match fuel with
  | O => None
  | S f =>
    match p l with
    | None => None
    | Some (v, r) =>
      match skip r with
      | c :: r' => if is c "]"%char then Some ([v], r')
                   else if is c ","%char then match items p f r' with Some (vs, r2) => Some (v :: vs, r2) | None => None end else None
      | [] => None
      end
    end
  end.
Fixpoint members (p : text -> option (json * text)) (fuel : nat) (l : text) : option (list (text * json) * text) :=
  match fuel with
  | O => None
  | S f =>
    match skip l with
    | q :: l1 =>
      if is q QUOTE then
        match str_body l1 with
        | None => None
        | Some (k, l2) =>
          match skip l2 with
          | c :: l3 =>
            if is c ":"%char then
              match p l3 with
              | None => None
              | Some (v, r) =>
                match skip r with
                | d :: r' => if is d "}"%char then Some ([(k, v)], r')
                             else if is d ","%char then match members p f r' with Some (ms, r2) => Some ((k, v) :: ms, r2) | None => None end else None
                | [] => None
                end
              end
            else None
          | [] => None
          end
        end
      else None
    | [] => None
    end
  end.
(** [depth] is what is left of the nesting limit *)
Fixpoint value (depth : nat) (l : text) : option (json * text) :=
  match skip l with
  | [] => None
  | c :: r =>
    if is c "n"%char then lit (txt "ull") JNull r
    else if is c "t"%char then lit (txt "rue") (JBool true) r
    else if is c "f"%char then lit (txt "alse") (JBool false) r
    else if is c QUOTE then match str_body r with Some (s, r') => Some (JStr s, r') | None => None end
    else if is c "-"%char then number true r
    else match digit c with
    | Some _ => number false (c :: r)
    | None =>
      match depth with
      | S (S _ as d) =>
        if is c "["%char then
          match skip r with
          | b :: r' => if is b "]"%char then Some (JArr [], r')
                       else match items (value d) (length l) r with Some (vs, r2) => Some (JArr vs, r2) | None => None end
          | [] => None
          end
        else if is c "{"%char then
          match skip r with
          | b :: r' => if is b "}"%char then Some (JObj [], r')
                       else match members (value d) (length l) r with Some (ms, r2) => Some (JObj ms, r2) | None => None end
          | [] => None
          end
        else None
      | _ => None
      end
    end
  end.
Definition parse (l : text) : option json := match value 128 l with Some (v, r) => match skip r with [] => Some v | _ => None end | None => None end.

(** ** the types: [Serialize] and [Deserialize] *)
Definition obind {A B} (o : option A) (k : A -> option B) : option B := match o with Some a => k a | None => None end.
Fixpoint omap {A B} (f : A -> option B) (l : list A) : option (list B) :=
  match l with [] => Some [] | a :: l' => obind (f a) (fun b => obind (omap f l') (fun bs => Some (b :: bs))) end.
Definition teqb (a b : text) : bool := if list_eq_dec ascii_dec a b then true else false.
(** the value of field [k]: an error if it is given twice *)
Definition field (ms : list (text * json)) (k : text) : option (option json) :=
  match filter (fun m => teqb (fst m) k) ms with [] => Some None | [m] => Some (Some (snd m)) | _ => None end.
Definition fields (ks : list text) (v : json) : option (list (option json)) :=
  match v with
  | JObj ms => omap (field ms) ks
  | JArr vs => if (length vs =? length ks)%nat then Some (map Some vs) else None
  | _ => None
  end.
Definition int_in (lo hi : Z) (v : json) : option Z := match v with JInt z => if (lo <=? z) && (z <=? hi) then Some z else None | _ => None end.
Definition rd_i8 := int_in (-128) 127.
Definition rd_u8 := int_in 0 255.
Definition rd_usize := int_in 0 (2 ^ 64 - 1).
Definition rd_bool (v : json) : option bool := match v with JBool b => Some b | _ => None end.
Definition rd_str (v : json) : option text := match v with JStr s => Some s | _ => None end.
Definition rd_vec {A} (f : json -> option A) (v : json) : option (list A) := match v with JArr vs => omap f vs | _ => None end.
Definition rd_array {A} (n : nat) (f : json -> option A) (v : json) : option (list A) :=
  match v with JArr vs => if (length vs =? n)%nat then omap f vs else None | _ => None end.
Definition rd_pair {A B} (f : json -> option A) (g : json -> option B) (v : json) : option (A * B) :=
  match v with JArr [a; b] => obind (f a) (fun x => obind (g b) (fun y => Some (x, y))) | _ => None end.
Definition rd_option {A} (f : json -> option A) (v : option json) : option (option A) :=
  match v with None | Some JNull => Some None | Some j => obind (f j) (fun a => Some (Some a)) end.
Definition wr_pair (p : Z * Z) : json := JArr [JInt (fst p); JInt (snd p)].
(** VS:17-20 *)
Definition agent_name (a : agent) : text := match a with ARandom => txt "Random" | AMcts => txt "Mcts" | AModel => txt "Model" | ANone => txt "None" end.
Definition wr_agent (a : agent) : json := JStr (agent_name a).
Definition rd_name (s : text) : option agent := List.find (fun a => teqb s (agent_name a)) [ARandom; AMcts; AModel; ANone].
Definition rd_agent (v : json) : option agent := match v with JStr s | JObj [(s, JNull)] => rd_name s | _ => None end.
(** BL:10, 53-60 *)
Definition wr_board (b : board) : json := JArr [JArr (map JInt (pts b)); wr_pair (hit1 b, hit2 b); wr_pair (col1 b, col2 b)].
Definition rd_board (v : json) : option board :=
  match v with
  | JArr [p; h; c] => obind (rd_array 24 rd_i8 p) (fun p => obind (rd_pair rd_u8 rd_u8 h) (fun h => obind (rd_pair rd_u8 rd_u8 c) (fun c =>
      Some (mkBoard p (fst h) (snd h) (fst c) (snd c)))))
  | _ => None
  end.
Definition wr_bg (s : bg) : json :=
  JObj [(txt "board", wr_board (bgboard s)); (txt "roll", wr_pair (roll s)); (txt "player", JInt (player s)); (txt "is_second_play", JBool (second s)); (txt "id", JInt (bgid s))].
Definition rd_bg (v : json) : option bg :=
  match fields [txt "board"; txt "roll"; txt "player"; txt "is_second_play"; txt "id"] v with
  | Some [Some b; Some r; Some p; Some s; Some i] =>
      obind (rd_board b) (fun b => obind (rd_pair rd_u8 rd_u8 r) (fun r => obind (rd_i8 p) (fun p => obind (rd_bool s) (fun s => obind (rd_usize i) (fun i => Some (mkBg b r p s i))))))
  | _ => None
  end.
(** TT:5-13 *)
Definition wr_ttt (s : ttt) : json := JObj [(txt "player", JInt (tplayer s)); (txt "board", JArr (map JInt (tboard s))); (txt "id", JInt (tid s))].
Definition rd_ttt (v : json) : option ttt :=
  match fields [txt "player"; txt "board"; txt "id"] v with
  | Some [Some p; Some b; Some i] => obind (rd_i8 p) (fun p => obind (rd_array 9 rd_i8 b) (fun b => obind (rd_usize i) (fun i => Some (mkTtt p b i))))
  | _ => None
  end.

Section Games.
  Variable T : Type.
  Variables (wr : T -> json) (rd : json -> option T).
  (** VS:21-26 *)
  Record sturn := mkSt { st_roll : option (Z * Z); st_action : list T; st_player : agent }.
  (** VS:27-35; [sg_id] is the text of the id *)
  Record sgame := mkSg { sg_id : text; sg_p1 : agent; sg_p2 : agent; sg_turns : list sturn; sg_winner : agent; sg_init : T }.
  Definition wr_turn (t : sturn) : json :=
    JObj [(txt "roll", match st_roll t with Some p => wr_pair p | None => JNull end); (txt "action", JArr (map wr (st_action t))); (txt "player", wr_agent (st_player t))].
  Definition rd_turn (v : json) : option sturn :=
    match fields [txt "roll"; txt "action"; txt "player"] v with
    | Some [r; Some a; Some p] => obind (rd_option (rd_pair rd_u8 rd_u8) r) (fun r => obind (rd_vec rd a) (fun a => obind (rd_agent p) (fun p => Some (mkSt r a p))))
    | _ => None
    end.
  Definition wr_game (g : sgame) : json :=
    JObj [(txt "id", JStr (sg_id g)); (txt "player1", wr_agent (sg_p1 g)); (txt "player2", wr_agent (sg_p2 g));
          (txt "turns", JArr (map wr_turn (sg_turns g))); (txt "winner", wr_agent (sg_winner g)); (txt "initial_state", wr (sg_init g))].
  Definition rd_game (v : json) : option sgame :=
    match fields [txt "id"; txt "player1"; txt "player2"; txt "turns"; txt "winner"; txt "initial_state"] v with
    | Some [Some i; Some a; Some b; Some t; Some w; Some s] =>
        obind (rd_str i) (fun i => obind (rd_agent a) (fun a => obind (rd_agent b) (fun b => obind (rd_vec rd_turn t) (fun t => obind (rd_agent w) (fun w => obind (rd s) (fun s => Some (mkSg i a b t w s)))))))
    | _ => None
    end.

  (** a directory: names and contents of the files; [None] is an entry that is not a file *)
  Definition dir := list (text * option text).
  Definition put (n t : text) (d : dir) : dir := (n, Some t) :: filter (fun e => negb (teqb (fst e) n)) d.
  (** VS:54-63; the id names the file.  That creating and writing the file succeeds is assumed *)
  Definition file_name (g : sgame) : text := sg_id g ++ txt ".json".
  Definition save_game (d : dir) (g : sgame) : dir := put (file_name g) (print 0 (wr_game g)) d.
  (** VS:65-73 on the contents of the file *)
  Definition load_game (t : text) : option sgame := obind (parse t) rd_game.
  (** VS:107-122; the directory in the order in which it is read *)
  Definition ends_json (n : text) : bool := teqb (skipn (length n - 5) n) (txt ".json").
  Fixpoint load_all (d : dir) : option (list sgame) :=
    match d with
    | [] => Some []
    | (n, Some t) :: d' => if ends_json n then obind (load_game t) (fun g => obind (load_all d') (fun gs => Some (g :: gs))) else load_all d'
    | (_, None) :: d' => load_all d'
    end.
End Games.
Arguments mkSt {T}. Arguments st_roll {T}. Arguments st_action {T}. Arguments st_player {T}.
Arguments mkSg {T}. Arguments sg_id {T}. Arguments sg_p1 {T}. Arguments sg_p2 {T}. Arguments sg_turns {T}. Arguments sg_winner {T}. Arguments sg_init {T}.
Arguments wr_turn {T}. Arguments rd_turn {T}. Arguments wr_game {T}. Arguments rd_game {T}. Arguments save_game {T}. Arguments file_name {T}. Arguments load_game {T}. Arguments load_all {T}.

(** a game of a match as it is saved; [name] gives the text of an id *)
Definition saved {G} (name : Z -> text) (g : vgame G) : sgame (St G) :=
  mkSg (name (vg_id g)) (vg_p1 g) (vg_p2 g) (map (fun t => mkSt (t_roll G t) (t_action G t) (t_player G t)) (vg_turns g)) (vg_winner g) (vg_init g).
(** src/main.rs:168-170 (command [play]): the games of the result are saved one after the other *)
Definition save_all {T} (wr : T -> json) (gs : list (sgame T)) (d : dir) : dir := fold_left (save_game wr) gs d.
