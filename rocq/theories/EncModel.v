(** * EncModel: the two copies of the Backgammon action codec.
    EN = src/backgammon/encoding.rs (inherent methods),
    BL = src/backgammon/backgammon_logic.rs (LearnableGame methods). *)
From Verif Require Export Base BgModel.

(** u32 arithmetic and casts *)
Definition u32 (pr : profile) (z : Z) : res Z :=
  if (0 <=? z) && (z <? 4294967296) then Ok z
  else match pr with Debug => Panic POverflow | Release => Ok (z mod 4294967296) end.
Definition i8_as_u32 (z : Z) : Z := z mod 4294967296.
Definition u32_as_i8 (z : Z) : Z := wrap_i8 z.

(** EN:16, BL:283: (high, low) *)
Definition high_low (rl : Z * Z) : Z * Z :=
  if snd rl <? fst rl then (fst rl, snd rl) else (snd rl, fst rl).

(** EN:21-29: minimum die for one step *)
Definition min_roll (pr : profile) (a : action) : res Z :=
  let (f, t) := a in
  if (f =? -1) && (t <? 6) then v <- i8 pr (t + 1) ;; Ok (i8_as_u8 v)
  else if (f =? -1) && (17 <? t) then v <- i8 pr (24 - t) ;; Ok (i8_as_u8 v)
  else if (t =? -1) && (f <? 6) then v <- i8 pr (f - -1) ;; Ok (i8_as_u8 v)
  else if (t =? -1) && (17 <? f) then v <- i8 pr (24 - f) ;; Ok (i8_as_u8 v)
  else v <- i8 pr (f - t) ;; Ok (Z.abs v).

(** EN:45-67 (i = 0) and EN:68-90 (i = 1): contribution to [encode_sum] and the
    new value of the low-roll flag; [mul] is 1 or 26, [mr] the minimum roll. *)
Definition enc_step (pr : profile) (mul low mr : Z) (a : action) : res (Z * bool) :=
  let (f, t) := a in
  if (f =? -1) && (t <? 6) then
    v <- i8 pr (t - -1) ;; Ok (mul * 24, i8_as_u8 v =? low)
  else if (f =? -1) && (17 <? t) then
    v <- i8 pr (24 - t) ;; Ok (mul * 24, i8_as_u8 v =? low)
  else if (t =? -1) && (f <? 6) then s <- u32 pr (mul * i8_as_u32 f) ;; Ok (s, false)
  else if (t =? -1) && (17 <? f) then s <- u32 pr (mul * i8_as_u32 f) ;; Ok (s, false)
  else s <- u32 pr (mul * i8_as_u32 f) ;; Ok (s, mr =? low).

(** EN:6-103 *)
Definition encode_inherent (pr : profile) (st : bg) (acts : actions) : res Z :=
  match acts with
  | _ :: _ :: _ :: _ => Panic PAssert
  | [] => Ok 1351
  | [a] =>
    let low := snd (high_low (roll st)) in
    m0 <- min_roll pr a ;;
    let m1 := 0 in
    '(s0, _) <- enc_step pr 1 low m0 a ;;
    s <- u32 pr (0 + s0) ;;
    s <- u32 pr (s + 26 * 25) ;;
    (* low_roll_first_flag reset, low_roll_second_flag never set *)
    let hrf := if negb (m1 =? 0) then m1 <=? m0 else low <? m0 in
    if hrf : bool then Ok s else u32 pr (s + 676)
  | [a; b] =>
    let low := snd (high_low (roll st)) in
    m0 <- min_roll pr a ;;
    m1 <- min_roll pr b ;;
    '(s0, fl1) <- enc_step pr 1 low m0 a ;;
    s <- u32 pr (0 + s0) ;;
    '(s1, fl2) <- enc_step pr 26 low m1 b ;;
    s <- u32 pr (s + s1) ;;
    let hrf := if fl1 : bool then false else if fl2 : bool then true
               else if negb (m1 =? 0) then m1 <=? m0 else low <? m0 in
    if hrf : bool then Ok s else u32 pr (s + 676)
  end.

(** EN:105-145 *)
Definition decode_inherent (pr : profile) (st : bg) (action : Z) : res actions :=
  if action =? 1351 then Ok []
  else
    let p := player st in
    let hrf := action <? 676 in
    let base := if hrf then action else action - 676 in
    let from1 := base mod 26 in
    let from2 := base / 26 in
    let single := from2 =? 25 in
    let (high, low) := high_low (roll st) in
    let f1 := u32_as_i8 from1 in
    let f2 := u32_as_i8 from2 in
    let lo := u8_as_i8 low in
    let hi := u8_as_i8 high in
    let f1 := if (f1 =? 24) && (p =? 1) then -1 else f1 in
    let f2 := if (f2 =? 24) && (p =? 1) then -1 else f2 in
    let d1 := if hrf then hi else lo in
    let d2 := if hrf then lo else hi in
    x1 <- i8 pr (d1 * p) ;; t1 <- i8 pr (f1 + x1) ;;
    x2 <- i8 pr (d2 * p) ;; t2 <- i8 pr (f2 + x2) ;;
    let t1 := if (24 <=? t1) || (t1 <=? -1) then -1 else t1 in
    let t2 := if (24 <=? t2) || (t2 <=? -1) then -1 else t2 in
    let f1 := if f1 =? 24 then -1 else f1 in
    let f2 := if f2 =? 24 then -1 else f2 in
    if single then Ok [(f1, t1)] else Ok [(f1, t1); (f2, t2)].

(** BL:271-372, the LearnableGame copies, transcribed separately. *)
Definition encode_trait (pr : profile) (st : bg) (acts : actions) : res Z :=
  match acts with
  | _ :: _ :: _ :: _ => Panic PAssert
  | [] => Ok 1351
  | [a] =>
    let low := snd (high_low (roll st)) in
    m0 <- min_roll pr a ;;
    '(s0, _) <- enc_step pr 1 low m0 a ;;
    s <- u32 pr (0 + s0) ;;
    s <- u32 pr (s + 26 * 25) ;;
    let hrf := if negb (0 =? 0) then 0 <=? m0 else low <? m0 in
    if hrf : bool then Ok s else u32 pr (s + 676)
  | [a; b] =>
    let low := snd (high_low (roll st)) in
    m0 <- min_roll pr a ;;
    m1 <- min_roll pr b ;;
    '(s0, fl1) <- enc_step pr 1 low m0 a ;;
    s <- u32 pr (0 + s0) ;;
    '(s1, fl2) <- enc_step pr 26 low m1 b ;;
    s <- u32 pr (s + s1) ;;
    let hrf := if fl1 : bool then false else if fl2 : bool then true
               else if negb (m1 =? 0) then m1 <=? m0 else low <? m0 in
    if hrf : bool then Ok s else u32 pr (s + 676)
  end.
Definition decode_trait (pr : profile) (st : bg) (action : Z) : res actions :=
  if action =? 1351 then Ok []
  else
    let hrf := action <? 676 in
    let base := if hrf then action else action - 676 in
    let from1 := base mod 26 in
    let from2 := base / 26 in
    let (high, low) := high_low (roll st) in
    let conv f := if (f =? 24) && (player st =? 1) then -1 else f in
    let f1 := conv (u32_as_i8 from1) in
    let f2 := conv (u32_as_i8 from2) in
    let lo := u8_as_i8 low in
    let hi := u8_as_i8 high in
    '(t1, t2) <-
      (if hrf then
         x1 <- i8 pr (hi * player st) ;; t1 <- i8 pr (f1 + x1) ;;
         x2 <- i8 pr (lo * player st) ;; t2 <- i8 pr (f2 + x2) ;; Ok (t1, t2)
       else
         x1 <- i8 pr (lo * player st) ;; t1 <- i8 pr (f1 + x1) ;;
         x2 <- i8 pr (hi * player st) ;; t2 <- i8 pr (f2 + x2) ;; Ok (t1, t2)) ;;
    let clip t := if (24 <=? t) || (t <=? -1) then -1 else t in
    let bar f := if f =? 24 then -1 else f in
    if from2 =? 25 then Ok [(bar f1, clip t1)] else Ok [(bar f1, clip t1); (bar f2, clip t2)].
