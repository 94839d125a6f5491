(** * BgModel: the Backgammon game of src/backgammon/backgammon_logic.rs
    (abbreviated BL below), function by function.  No proofs here. *)
From Verif Require Export Base.

(** BL:10  [type Board = ([i8; 24], (u8, u8), (u8, u8))]:
    points, pieces hit (player -1, player 1), pieces collected (player -1, player 1). *)
Record board := mkBoard { pts : list Z; hit1 : Z; hit2 : Z; col1 : Z; col2 : Z }.

(** BL:12  one [(from, to)] step and a list of them. *)
Definition action := (Z * Z)%type.
Definition actions := list action.

(** BL:16-19 *)
Inductive anode := ANode (value : action) (children : list anode).

(** BL:54-60 *)
Record bg := mkBg { bgboard : board; roll : Z * Z; player : Z; second : bool; bgid : Z }.

(** BL:82-88, 454-462 *)
Definition initial_board : board :=
  mkBoard [2; 0; 0; 0; 0; -5; 0; -3; 0; 0; 0; 5; -5; 0; 0; 0; 3; 0; 5; 0; 0; 0; 0; -2]
          0 0 0 0.
(** BL:80-94 *)
Definition bg_new : bg := mkBg initial_board (0, 0) (-1) false 0.
(** BL:419-427 *)
Definition init_with_fields (b : board) (p : Z) (sp : bool) : bg := mkBg b (0, 0) p sp 0.

(** BL:100-104 *)
Definition bg_roll_die (s : bg) (r : rng) : bg * rng :=
  let (d0, r1) := gen_range 1 6 r in
  let (d1, r2) := gen_range 1 6 r1 in
  (mkBg (bgboard s) (d0, d1) (player s) (second s) (bgid s), r2).

(** BL:467-517, body of the loop: one action. *)
Definition next_action (pr : profile) (p : Z) (st : board) (a : action) : res board :=
  let (from, to) := a in
  if to =? -1 then
    x <- idx (pts st) from ;;
    v <- i8 pr (x - p) ;;
    l <- upd (pts st) from v ;;
    if p =? -1 then
      c <- u8 pr (col1 st + 1) ;; Ok (mkBoard l (hit1 st) (hit2 st) c (col2 st))
    else
      c <- u8 pr (col2 st + 1) ;; Ok (mkBoard l (hit1 st) (hit2 st) (col1 st) c)
  else if from =? -1 then
    x <- idx (pts st) to ;;
    np <- i8 pr (- p) ;;
    if x =? np then
      l <- upd (pts st) to p ;;
      if p =? -1 then
        h2 <- u8 pr (hit2 st + 1) ;; h1 <- u8 pr (hit1 st - 1) ;;
        Ok (mkBoard l h1 h2 (col1 st) (col2 st))
      else
        h1 <- u8 pr (hit1 st + 1) ;; h2 <- u8 pr (hit2 st - 1) ;;
        Ok (mkBoard l h1 h2 (col1 st) (col2 st))
    else if p =? -1 then
      v <- i8 pr (x - 1) ;; l <- upd (pts st) to v ;;
      h1 <- u8 pr (hit1 st - 1) ;;
      Ok (mkBoard l h1 (hit2 st) (col1 st) (col2 st))
    else
      v <- i8 pr (x + 1) ;; l <- upd (pts st) to v ;;
      h2 <- u8 pr (hit2 st - 1) ;;
      Ok (mkBoard l (hit1 st) h2 (col1 st) (col2 st))
  else
    x <- idx (pts st) to ;;
    np <- i8 pr (- p) ;;
    if x =? np then
      l <- upd (pts st) to p ;;
      y <- idx l from ;; v <- i8 pr (y - p) ;; l' <- upd l from v ;;
      if p =? -1 then
        h2 <- u8 pr (hit2 st + 1) ;; Ok (mkBoard l' (hit1 st) h2 (col1 st) (col2 st))
      else
        h1 <- u8 pr (hit1 st + 1) ;; Ok (mkBoard l' h1 (hit2 st) (col1 st) (col2 st))
    else
      w <- i8 pr (x + p) ;; l <- upd (pts st) to w ;;
      y <- idx l from ;; v <- i8 pr (y - p) ;; l' <- upd l from v ;;
      Ok (mkBoard l' (hit1 st) (hit2 st) (col1 st) (col2 st)).

(** BL:467-517 *)
Definition get_next_state (pr : profile) (st : board) (acts : actions) (p : Z) : res board :=
  mfold (next_action pr p) acts st.

(** BL:519-525 *)
Definition check_win (b : board) (p : Z) : bool :=
  if p =? -1 then col1 b =? 15 else col2 b =? 15.
(** BL:527-534 *)
Definition check_win_without_player (b : board) : option Z :=
  if col1 b =? 15 then Some (-1) else if col2 b =? 15 then Some 1 else None.
(** BL:106-108 *)
Definition bg_check_winner (s : bg) : option Z := check_win_without_player (bgboard s).

(** BL:536-542 *)
Definition get_pieces_hit (b : board) (p : Z) : Z := if p =? -1 then hit1 b else hit2 b.

(** BL:638-659.  The array has 24 entries by type, so the reads cannot fail; the
    model reads with default 0. *)
Definition at_pt (l : list Z) (i : Z) : Z := nth (Z.to_nat i) l 0.
Definition is_collectible (b : board) (p : Z) : bool :=
  if p =? -1 then
    if negb (hit1 b =? 0) then false
    else forallb (fun i => negb (at_pt (pts b) i <? 0)) (range 6 24)
  else if p =? 1 then
    if negb (hit2 b =? 0) then false
    else forallb (fun i => negb (0 <? at_pt (pts b) i)) (range 0 18)
  else true.

(** An element of [possible_actions]: (die, (from, to)). *)
Definition pact := (Z * (Z * Z))%type.

(** First element of a list for which the test succeeds ([for .. if .. {push; break}]). *)
Fixpoint mfind {A} (f : A -> res bool) (l : list A) : res (option A) :=
  match l with
  | [] => Ok None
  | x :: l' => b <- f x ;; if b then Ok (Some x) else mfind f l'
  end.

(** BL:563-580, the loop body for one die [m], player -1. *)
Definition collect_p1 (pr : profile) (bd : list Z) (m : Z) : res (list pact) :=
  point <- i8 pr (m - 1) ;;
  n <- idx bd point ;;
  let exact := if n <? 0 then [(m, (point, -1))] else [] in
  o <- mfind (fun j =>
         nj <- idx bd j ;;
         sl <- slice bd (j + 1) 6 ;;
         left_sum <- sum_i8 pr sl ;;
         Ok ((nj <? 0) && (0 <=? left_sum))) (rev (range 0 point)) ;;
  Ok (exact ++ match o with Some j => [(m, (j, -1))] | None => [] end).

(** BL:582-597, the loop body for one die [m], player 1. *)
Definition collect_p2 (pr : profile) (bd : list Z) (m : Z) : res (list pact) :=
  point <- i8 pr (24 - m) ;;
  n <- idx bd point ;;
  let exact := if 0 <? n then [(m, (point, -1))] else [] in
  o <- mfind (fun j =>
         nj <- idx bd j ;;
         sl <- slice bd 18 j ;;
         left_sum <- sum_i8 pr sl ;;
         Ok ((0 <? nj) && (left_sum <=? 0))) (range point 24) ;;
  Ok (exact ++ match o with Some j => [(m, (j, -1))] | None => [] end).

(** BL:601-616, the inner loop body for one die [m] and one point. *)
Definition normal_one (pr : profile) (bd : list Z) (p m : Z) (pn : Z * Z) : res (list pact) :=
  let (point, n) := pn in
  c1 <- (if (p =? -1) && (n <=? p) then
           q <- i8 pr (point - m) ;;
           if 0 <=? q then x <- idx bd q ;; Ok (if x <=? 1 then Some q else None)
           else Ok None
         else Ok None) ;;
  match c1 with
  | Some q => Ok [(m, (point, q))]
  | None =>
    c2 <- (if (p =? 1) && (p <=? n) then
             q <- i8 pr (point + m) ;;
             if q <=? 23 then x <- idx bd q ;; Ok (if -1 <=? x then Some q else None)
             else Ok None
           else Ok None) ;;
    match c2 with Some q => Ok [(m, (point, q))] | None => Ok [] end
  end.

(** [board.iter().enumerate().map(|x| (x.0 as i8, x.1))] *)
Definition enum {A} (l : list A) : list (Z * A) :=
  combine (range 0 (Z.of_nat (length l))) l.

Definition mflat {A B} (f : A -> res (list B)) (l : list A) : res (list B) :=
  ys <- mmap f l ;; Ok (concat ys).

(** [u8 as i8], [i8 as u8] *)
Definition u8_as_i8 (z : Z) : Z := wrap_i8 z.
Definition i8_as_u8 (z : Z) : Z := wrap_u8 z.

(** Lexicographic [Ord] on (i8, (i8, i8)); [sort_unstable] then [dedup]. *)
Definition pact_leb (a b : pact) : bool :=
  let '(m, (f, t)) := a in let '(m', (f', t')) := b in
  (m <? m') || ((m =? m') && ((f <? f') || ((f =? f') && (t <=? t')))).
Definition pact_eqb (a b : pact) : bool :=
  let '(m, (f, t)) := a in let '(m', (f', t')) := b in
  (m =? m') && (f =? f') && (t =? t').
Fixpoint insert_pact (x : pact) (l : list pact) : list pact :=
  match l with
  | [] => [x]
  | y :: l' => if pact_leb x y then x :: l else y :: insert_pact x l'
  end.
Definition sort_pacts (l : list pact) : list pact := fold_right insert_pact [] l.
Fixpoint dedup_pacts (l : list pact) : list pact :=
  match l with
  | [] => []
  | x :: l' => match l' with
               | [] => [x]
               | y :: _ => if pact_eqb x y then dedup_pacts l' else x :: dedup_pacts l'
               end
  end.

(** BL:562-620: all possible first actions from points, sorted and deduplicated. *)
Definition normal_actions (pr : profile) (moves : list Z) (st : board) (p : Z) : res (list pact) :=
  let bd := pts st in
  let ms := map u8_as_i8 moves in
  collects <-
    (if (p =? -1) && is_collectible st p then mflat (collect_p1 pr bd) ms
     else if (p =? 1) && is_collectible st p then mflat (collect_p2 pr bd) ms
     else Ok []) ;;
  normals <- mflat (fun m => mflat (normal_one pr bd p m) (enum bd)) ms ;;
  Ok (dedup_pacts (sort_pacts (collects ++ normals))).

(** BL:668-686: all possible first actions from the bar. *)
Definition entry_one (pr : profile) (bd : list Z) (p m : Z) : res (list pact) :=
  if p =? -1 then
    point <- i8 pr (24 - m) ;;
    x <- idx bd point ;; Ok (if x <? 2 then [(m, (-1, point))] else [])
  else if p =? 1 then
    point <- i8 pr (m - 1) ;;
    x <- idx bd point ;; Ok (if -2 <? x then [(m, (-1, point))] else [])
  else Ok [].
Definition entry_actions (pr : profile) (moves : list Z) (st : board) (p : Z) : res (list pact) :=
  l <- mflat (entry_one pr (pts st) p) (map u8_as_i8 moves) ;;
  Ok (dedup_pacts (sort_pacts l)).

(** BL:714-716: [new_moves.remove(position(|m| m == move_used).unwrap())] *)
Fixpoint remove_first (x : Z) (l : list Z) : res (list Z) :=
  match l with
  | [] => Panic PUnwrap
  | y :: l' => if y =? x then Ok l' else l'' <- remove_first x l' ;; Ok (y :: l'')
  end.

(** BL:622-635, 688-702 and 705-720: one tree per possible action; [rec] stands for
    the recursive call of [_get_action_trees]. *)
Definition grow (pr : profile) (rec : list Z -> board -> res (list anode))
           (moves : list Z) (st : board) (p : Z) (acts : list pact) : res (list anode) :=
  mmap (fun pa : pact =>
          let (m, a) := pa in
          st' <- get_next_state pr st [a] p ;;
          moves' <- remove_first (i8_as_u8 m) moves ;;
          ch <- rec moves' st' ;;
          Ok (ANode a ch)) acts.

(** BL:544-552 together with the bodies it calls.  The recursion consumes one die
    per level; fuel [S (length moves)] always suffices (BgGen.v). *)
Fixpoint action_trees (pr : profile) (fuel : nat) (moves : list Z) (st : board) (p : Z)
  : res (list anode) :=
  match fuel with
  | O => Panic PFuel
  | S fuel' =>
    acts <- (if 0 <? get_pieces_hit st p then entry_actions pr moves st p
             else normal_actions pr moves st p) ;;
    grow pr (fun mv st' => action_trees pr fuel' mv st' p) moves st p acts
  end.

(** BL:555-636 and 662-703, the public entry points. *)
Definition get_normal_moves (pr : profile) (moves : list Z) (st : board) (p : Z) : res (list anode) :=
  acts <- normal_actions pr moves st p ;;
  grow pr (fun mv st' => action_trees pr (length moves) mv st' p) moves st p acts.
Definition get_entry_moves (pr : profile) (moves : list Z) (st : board) (p : Z) : res (list anode) :=
  acts <- entry_actions pr moves st p ;;
  grow pr (fun mv st' => action_trees pr (length moves) mv st' p) moves st p acts.

(** BL:734-750 (with [current_sequence] as accumulator), 730-732, 722-728. *)
Fixpoint extract_helper (n : anode) (cur : actions) : list actions :=
  match n with
  | ANode v ch =>
    match ch with
    | [] => [cur ++ [v]]
    | _ => (fix go (l : list anode) : list actions :=
              match l with
              | [] => []
              | c :: l' => extract_helper c (cur ++ [v]) ++ go l'
              end) ch
    end
  end.
Definition extract_sequences_node (n : anode) : list actions := extract_helper n [].
Definition extract_sequences_list (l : list anode) : list actions :=
  flat_map extract_sequences_node l.

(** [Eq] on boards, used by the [HashSet]. *)
Fixpoint list_eqb (a b : list Z) : bool :=
  match a, b with
  | [], [] => true
  | x :: a', y :: b' => (x =? y) && list_eqb a' b'
  | _, _ => false
  end.
Definition board_eqb (a b : board) : bool :=
  list_eqb (pts a) (pts b) && (hit1 a =? hit1 b) && (hit2 a =? hit2 b)
  && (col1 a =? col1 b) && (col2 a =? col2 b).

(** BL:753-774; [seen] is the HashSet, kept as a list. *)
Fixpoint dedup_states (pr : profile) (st0 : board) (p : Z)
         (seqs : list actions) (seen : list board) : res (list actions) :=
  match seqs with
  | [] => Ok []
  | s :: rest =>
    st <- mfold (fun cur a => get_next_state pr cur [a] p) s st0 ;;
    if existsb (board_eqb st) seen then dedup_states pr st0 p rest seen
    else out <- dedup_states pr st0 p rest (st :: seen) ;; Ok (s :: out)
  end.
Definition remove_duplicate_states (pr : profile) (st0 : board) (seqs : list actions) (p : Z)
  : res (list actions) := dedup_states pr st0 p seqs [].

(** BL:403-414 *)
Definition all_moves (rl : Z * Z) : list Z :=
  let (r0, r1) := rl in if r1 <? r0 then [r0; r1] else [r1; r0].
Definition bg_valid_moves (pr : profile) (s : bg) : res (list actions) :=
  if (fst (roll s) =? 0) && (snd (roll s) =? 0) then Panic PAssert
  else
    trees <- action_trees pr 3 (all_moves (roll s)) (bgboard s) (player s) ;;
    remove_duplicate_states pr (bgboard s) (extract_sequences_list trees) (player s).

(** BL:192-196 *)
Definition bg_skip_turn (pr : profile) (s : bg) (r : rng) : res (bg * rng) :=
  p' <- i8 pr (player s * -1) ;;
  Ok (bg_roll_die (mkBg (bgboard s) (roll s) p' false (bgid s)) r).

(** BL:176-186 *)
Definition bg_apply_move (pr : profile) (s : bg) (acts : actions) (r : rng) : res (bg * rng) :=
  b' <- get_next_state pr (bgboard s) acts (player s) ;;
  if (fst (roll s) =? snd (roll s)) && negb (second s) then
    Ok (mkBg b' (roll s) (player s) true (bgid s), r)
  else
    p' <- i8 pr (player s * -1) ;;
    Ok (bg_roll_die (mkBg b' (roll s) p' false (bgid s)) r).

(** BL:433-452: sums in i8, then the assertion. *)
Definition bg_is_valid (pr : profile) (s : bg) : res unit :=
  let b := bgboard s in
  '(t1, t2) <- mfold (fun acc x =>
      let (t1, t2) := acc : Z * Z in
      if x <? 0 then t1' <- i8 pr (t1 - x) ;; Ok (t1', t2)
      else if 0 <? x then t2' <- i8 pr (t2 + x) ;; Ok (t1, t2')
      else Ok (t1, t2)) (pts b) (0, 0) ;;
  t1 <- i8 pr (t1 + u8_as_i8 (hit1 b)) ;;
  t1 <- i8 pr (t1 + u8_as_i8 (col1 b)) ;;
  t2 <- i8 pr (t2 + u8_as_i8 (hit2 b)) ;;
  t2 <- i8 pr (t2 + u8_as_i8 (col2 b)) ;;
  if (t1 =? 15) && (t2 =? 15) then Ok tt else Panic PAssert.
