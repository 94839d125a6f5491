(** * JsonApi: proofs re-exported by Prop_Json.v. *)
From Coq Require Import Permutation Arith.
From Verif Require Import BgSpec GameFacts JsonSpec JsonProof VersusSpec VersusApi VersusStuck VersusApi2 Witness.
Require Import ZifyBool ZifyNat.

Lemma omap_map {A B C} (f : B -> option C) (w : A -> B) (h : A -> C) l : Forall (fun a => f (w a) = Some (h a)) l -> omap f (map w l) = Some (map h l).
Proof. induction 1 as [|a l H HF IH]; [reflexivity|]. cbn [map omap]. rewrite H. cbn [obind]. rewrite IH. reflexivity. Qed.
Lemma omap_id {A B} (f : B -> option A) (w : A -> B) l : Forall (fun a => f (w a) = Some a) l -> omap f (map w l) = Some l.
Proof. intros H. rewrite (omap_map f w (fun a => a) l H). rewrite map_id. reflexivity. Qed.
Lemma teqb_eq a b : teqb a b = true <-> a = b.
Proof. unfold teqb. destruct (list_eq_dec ascii_dec a b); split; congruence. Qed.

(** ** writing and reading one position *)
Record carries {T} (wr : T -> json) (rd : json -> option T) (ok : T -> Prop) : Prop := {
  ca_wr : forall s, ok s -> writable (wr s);
  ca_depth : forall s, ok s -> (depth (wr s) <= 10)%nat;
  ca_rd : forall s, ok s -> rd (wr s) = Some s;
  ca_back : forall v s, rd v = Some s -> ok s
}.
Lemma int_rd lo hi z : lo <= z <= hi -> int_in lo hi (JInt z) = Some z.
Proof. intros H. unfold int_in. replace ((lo <=? z) && (z <=? hi)) with true by lia. reflexivity. Qed.
Lemma int_back lo hi v z : int_in lo hi v = Some z -> lo <= z <= hi.
Proof. unfold int_in. destruct v; try discriminate. destruct ((lo <=? z0) && (z0 <=? hi)) eqn:E; [|discriminate]. intros H. injection H as <-. lia. Qed.
Lemma omap_back {A B} (f : A -> option B) (P : B -> Prop) : (forall a b, f a = Some b -> P b) -> forall l ys, omap f l = Some ys -> Forall P ys /\ length ys = length l.
Proof.
  intros HP. induction l as [|a l IH]; intros ys H; cbn [omap] in H; [injection H as <-; split; [constructor|reflexivity]|].
  destruct (f a) as [b|] eqn:E; cbn [obind] in H; [|discriminate]. destruct (omap f l) as [bs|]; cbn [obind] in H; [|discriminate]. injection H as <-.
  destruct (IH bs eq_refl) as [H1 H2]. split; [constructor; [eapply HP; exact E|exact H1]|cbn; lia].
Qed.
Lemma array_back {A} n (f : json -> option A) (P : A -> Prop) v ys : (forall a b, f a = Some b -> P b) -> rd_array n f v = Some ys -> Forall P ys /\ length ys = n.
Proof.
  intros HP H. unfold rd_array in H. destruct v as [| | | | |vs|]; try discriminate H. destruct (length vs =? n)%nat eqn:E; [|discriminate]. apply Nat.eqb_eq in E.
  destruct (omap_back f P HP vs ys H) as [H1 H2]. split; [exact H1|lia].
Qed.
Lemma vec_back {A} (f : json -> option A) (P : A -> Prop) v ys : (forall a b, f a = Some b -> P b) -> rd_vec f v = Some ys -> Forall P ys.
Proof. intros HP H. unfold rd_vec in H. destruct v as [| | | | |vs|]; try discriminate H. apply (omap_back f P HP vs ys H). Qed.
Lemma pair_back v p : rd_pair rd_u8 rd_u8 v = Some p -> is_u8 (fst p) /\ is_u8 (snd p).
Proof.
  intros H. unfold rd_pair in H. destruct v as [| | | | |[|a [|b [|]]]|]; try discriminate H. destruct (rd_u8 a) as [x|] eqn:E1; cbn [obind] in H; [|discriminate].
  destruct (rd_u8 b) as [y|] eqn:E2; cbn [obind] in H; [|discriminate]. injection H as <-. split; eapply int_back; eassumption.
Qed.
Lemma pair_rd p : is_u8 (fst p) -> is_u8 (snd p) -> rd_pair rd_u8 rd_u8 (wr_pair p) = Some p.
Proof. intros H1 H2. unfold wr_pair, rd_pair. unfold rd_u8. rewrite (int_rd 0 255 _ H1), (int_rd 0 255 _ H2). destruct p; reflexivity. Qed.
Lemma ints_wr l : Forall is_i8 l -> Forall writable (map JInt l).
Proof. intros H. apply Forall_forall. intros v Hv. apply in_map_iff in Hv. destruct Hv as (z & <- & Hz). rewrite Forall_forall in H. specialize (H z Hz). unfold is_i8 in H. constructor. lia. Qed.
Lemma ints_depth l : fold_right (fun w m => Nat.max (depth w) m) 0%nat (map JInt l) = 0%nat.
Proof. induction l as [|z l IH]; [reflexivity|]. cbn [map fold_right depth]. rewrite IH. reflexivity. Qed.
Lemma ints_rd n l : length l = n -> Forall is_i8 l -> rd_array n rd_i8 (JArr (map JInt l)) = Some l.
Proof.
  intros HL HF. unfold rd_array. rewrite map_length, HL, Nat.eqb_refl. apply omap_id. eapply Forall_impl; [|exact HF]. intros z Hz. apply int_rd. exact Hz.
Qed.
Lemma i8_wr z : is_i8 z -> writable (JInt z).
Proof. unfold is_i8. intros H. constructor. lia. Qed.
Lemma u8_wr z : is_u8 z -> writable (JInt z).
Proof. unfold is_u8. intros H. constructor. lia. Qed.
Lemma u64_wr z : is_u64 z -> writable (JInt z).
Proof. unfold is_u64. intros H. constructor. lia. Qed.
Lemma pair_wr p : is_u8 (fst p) -> is_u8 (snd p) -> writable (wr_pair p).
Proof. intros H1 H2. constructor. repeat constructor; unfold is_u8 in *; lia. Qed.
Lemma usize_rd z : is_u64 z -> rd_usize (JInt z) = Some z.
Proof. unfold is_u64. intros H. apply int_rd. lia. Qed.
Lemma usize_back v z : rd_usize v = Some z -> is_u64 z.
Proof. intros H. apply int_back in H. unfold is_u64. lia. Qed.

Lemma ttt_carries : carries wr_ttt rd_ttt typed_ttt.
Proof.
  constructor.
  - intros s (Hp & HL & Hb & Hi). unfold wr_ttt. constructor. repeat (constructor; cbn [snd]); try (apply i8_wr, Hp); try (apply u64_wr, Hi); try (apply ints_wr, Hb); unfold is_i8, is_u64 in *; lia.
  - intros s _. unfold wr_ttt. cbn [depth fold_right snd]. rewrite ints_depth. cbn. lia.
  - intros s (Hp & HL & Hb & Hi). unfold rd_ttt, wr_ttt.
    change (fields [txt "player"; txt "board"; txt "id"] (JObj [(txt "player", JInt (tplayer s)); (txt "board", JArr (map JInt (tboard s))); (txt "id", JInt (tid s))]))
      with (Some [Some (JInt (tplayer s)); Some (JArr (map JInt (tboard s))); Some (JInt (tid s))]).
    cbv iota. unfold rd_i8 at 1. rewrite (int_rd _ _ _ Hp). cbn [obind]. rewrite (ints_rd 9 _ HL Hb). cbn [obind]. rewrite (usize_rd _ Hi). destruct s; reflexivity.
  - intros v s H. unfold rd_ttt in H. destruct (fields _ v) as [[|[p|] [|[b|] [|[i|] [|]]]]|]; try discriminate H.
    destruct (rd_i8 p) as [p'|] eqn:Ep; cbn [obind] in H; [|discriminate]. destruct (rd_array 9 rd_i8 b) as [b'|] eqn:Eb; cbn [obind] in H; [|discriminate].
    destruct (rd_usize i) as [i'|] eqn:Ei; cbn [obind] in H; [|discriminate]. injection H as <-. destruct (array_back 9 rd_i8 is_i8 b b' ltac:(intros a z Hz; eapply int_back; exact Hz) Eb) as [H1 H2].
    split; [eapply int_back; exact Ep|]. split; [exact H2|]. split; [exact H1|]. eapply usize_back. exact Ei.
Qed.
Lemma bg_carries : carries wr_bg rd_bg typed_bg.
Proof.
  constructor.
  - intros s ((HL & Hb & Hh1 & Hh2 & Hc1 & Hc2) & Hr1 & Hr2 & Hp & Hi). unfold wr_bg, wr_board. constructor.
    constructor; cbn [snd]. { constructor. constructor; [constructor; apply ints_wr, Hb|]. constructor; [apply pair_wr; assumption|]. constructor; [apply pair_wr; assumption|constructor]. }
    constructor; cbn [snd]; [apply pair_wr; assumption|]. constructor; cbn [snd]; [apply i8_wr, Hp|]. constructor; cbn [snd]; [constructor|]. constructor; cbn [snd]; [apply u64_wr, Hi|constructor].
  - intros s _. unfold wr_bg, wr_board, wr_pair. cbn [depth fold_right snd]. rewrite ints_depth. cbn. lia.
  - intros s ((HL & Hb & Hh1 & Hh2 & Hc1 & Hc2) & Hr1 & Hr2 & Hp & Hi). unfold rd_bg, wr_bg.
    change (fields [txt "board"; txt "roll"; txt "player"; txt "is_second_play"; txt "id"] (JObj [(txt "board", wr_board (bgboard s)); (txt "roll", wr_pair (roll s)); (txt "player", JInt (player s)); (txt "is_second_play", JBool (second s)); (txt "id", JInt (bgid s))]))
      with (Some [Some (wr_board (bgboard s)); Some (wr_pair (roll s)); Some (JInt (player s)); Some (JBool (second s)); Some (JInt (bgid s))]). cbv iota.
    assert (Eb : rd_board (wr_board (bgboard s)) = Some (bgboard s)).
    { unfold rd_board, wr_board. rewrite (ints_rd 24 _ HL Hb). cbn [obind]. rewrite (pair_rd (hit1 (bgboard s), hit2 (bgboard s))) by assumption. cbn [obind].
      rewrite (pair_rd (col1 (bgboard s), col2 (bgboard s))) by assumption. destruct (bgboard s); reflexivity. }
    rewrite Eb. cbn [obind]. rewrite (pair_rd (roll s)) by assumption. cbn [obind]. unfold rd_i8. rewrite (int_rd _ _ _ Hp). cbn [obind rd_bool]. rewrite (usize_rd _ Hi). destruct s; reflexivity.
  - intros v s H. unfold rd_bg in H. destruct (fields _ v) as [[|[b|] [|[r|] [|[p|] [|[sc|] [|[i|] [|]]]]]]|]; try discriminate H.
    destruct (rd_board b) as [b'|] eqn:Eb; cbn [obind] in H; [|discriminate]. destruct (rd_pair rd_u8 rd_u8 r) as [r'|] eqn:Er; cbn [obind] in H; [|discriminate].
    destruct (rd_i8 p) as [p'|] eqn:Ep; cbn [obind] in H; [|discriminate]. destruct (rd_bool sc) as [s'|] eqn:Es; cbn [obind] in H; [|discriminate].
    destruct (rd_usize i) as [i'|] eqn:Ei; cbn [obind] in H; [|discriminate]. injection H as <-. destruct (pair_back r r' Er) as [H1 H2].
    split; [|split; [exact H1|split; [exact H2|split; [eapply int_back; exact Ep|eapply usize_back; exact Ei]]]]. cbn [bgboard].
    unfold rd_board in Eb. destruct b as [| | | | |[|x [|y [|z [|]]]]|]; try discriminate Eb.
    destruct (rd_array 24 rd_i8 x) as [x'|] eqn:Ex; cbn [obind] in Eb; [|discriminate]. destruct (rd_pair rd_u8 rd_u8 y) as [y'|] eqn:Ey; cbn [obind] in Eb; [|discriminate].
    destruct (rd_pair rd_u8 rd_u8 z) as [z'|] eqn:Ez; cbn [obind] in Eb; [|discriminate]. injection Eb as <-.
    destruct (array_back 24 rd_i8 is_i8 x x' ltac:(intros a w Hw; eapply int_back; exact Hw) Ex) as [H3 H4]. destruct (pair_back y y' Ey) as [Q1 Q2], (pair_back z z' Ez) as [Q3 Q4]. exact (conj H4 (conj H3 (conj Q1 (conj Q2 (conj Q3 Q4))))).
Qed.

(** ** whole games *)
Section Games.
  Context {T : Type} (wr : T -> json) (rd : json -> option T) (ok : T -> Prop).
  Hypothesis HC : carries wr rd ok.
  Lemma agent_rd a : rd_agent (wr_agent a) = Some a.
  Proof. destruct a; reflexivity. Qed.
  Lemma depth_list {A} (f : A -> json) l m : Forall (fun a => (depth (f a) <= m)%nat) l -> (fold_right (fun w m => Nat.max (depth w) m) 0%nat (map f l) <= m)%nat.
  Proof. induction 1 as [|a l H HF IH]; cbn [map fold_right]; lia. Qed.
  Lemma turn_ok t : typed_turn ok t -> writable (wr_turn wr t) /\ (depth (wr_turn wr t) <= 12)%nat /\ rd_turn rd (wr_turn wr t) = Some t.
  Proof.
    intros [Hr Ha]. unfold wr_turn. split; [|split].
    - constructor. constructor; cbn [snd]; [destruct (st_roll t) as [[a b]|]; [apply pair_wr; tauto|constructor]|].
      constructor; cbn [snd]; [constructor; apply Forall_forall; intros v Hv; apply in_map_iff in Hv; destruct Hv as (s & <- & Hs); apply (ca_wr _ _ _ HC); rewrite Forall_forall in Ha; auto|].
      constructor; cbn [snd]; [constructor|constructor].
    - cbn [depth fold_right snd]. assert (HD : (fold_right (fun w m => Nat.max (depth w) m) 0%nat (map wr (st_action t)) <= 10)%nat).
      { apply depth_list. eapply Forall_impl; [|exact Ha]. apply (ca_depth _ _ _ HC). }
      assert (HR : (depth (match st_roll t with Some p => wr_pair p | None => JNull end) <= 1)%nat) by (destruct (st_roll t) as [[a b]|]; cbn; lia).
      cbn [wr_agent depth]. lia.
    - unfold rd_turn.
      change (fields [txt "roll"; txt "action"; txt "player"] (JObj [(txt "roll", match st_roll t with Some p => wr_pair p | None => JNull end); (txt "action", JArr (map wr (st_action t))); (txt "player", wr_agent (st_player t))]))
        with (Some [Some (match st_roll t with Some p => wr_pair p | None => JNull end); Some (JArr (map wr (st_action t))); Some (wr_agent (st_player t))]). cbv iota.
      assert (Er : rd_option (rd_pair rd_u8 rd_u8) (Some (match st_roll t with Some p => wr_pair p | None => JNull end)) = Some (st_roll t)).
      { destruct (st_roll t) as [[a b]|]; [|reflexivity]. unfold rd_option. change (wr_pair (a, b)) with (JArr [JInt a; JInt b]). cbv iota. change (JArr [JInt a; JInt b]) with (wr_pair (a, b)).
        rewrite (pair_rd (a, b)) by (cbn; tauto). reflexivity. }
      rewrite Er. cbn [obind rd_vec]. rewrite omap_id; [|eapply Forall_impl; [|exact Ha]; apply (ca_rd _ _ _ HC)]. cbn [obind]. rewrite agent_rd. destruct t; reflexivity.
  Qed.
  Lemma turn_back v t : rd_turn rd v = Some t -> typed_turn ok t.
  Proof.
    intros H. unfold rd_turn in H. destruct (fields _ v) as [[|r [|[a|] [|[p|] [|]]]]|]; try discriminate H.
    destruct (rd_option (rd_pair rd_u8 rd_u8) r) as [r'|] eqn:Er; cbn [obind] in H; [|discriminate]. destruct (rd_vec rd a) as [a'|] eqn:Ea; cbn [obind] in H; [|discriminate].
    destruct (rd_agent p) as [p'|]; cbn [obind] in H; [|discriminate]. injection H as <-. split; cbn [st_roll st_action].
    - destruct r' as [[x y]|]; [|exact Logic.I]. unfold rd_option in Er. destruct r as [j|]; [|discriminate Er].
      assert (E : obind (rd_pair rd_u8 rd_u8 j) (fun a => Some (Some a)) = Some (Some (x, y))) by (destruct j; try discriminate Er; exact Er).
      destruct (rd_pair rd_u8 rd_u8 j) as [q|] eqn:Eq; cbn [obind] in E; [|discriminate E]. injection E as ->. apply (pair_back j (x, y) Eq).
    - eapply vec_back; [|exact Ea]. apply (ca_back _ _ _ HC).
  Qed.
  Lemma game_ok g : typed_game ok g -> writable (wr_game wr g) /\ (depth (wr_game wr g) < 128)%nat /\ rd_game rd (wr_game wr g) = Some g.
  Proof.
    intros [Ht Hi]. unfold wr_game. split; [|split].
    - constructor. repeat (constructor; cbn [snd]); try (apply (ca_wr _ _ _ HC), Hi).
      apply Forall_forall. intros v Hv. apply in_map_iff in Hv. destruct Hv as (t & <- & Hin). rewrite Forall_forall in Ht. apply turn_ok. auto.
    - cbn [depth fold_right snd wr_agent]. pose proof (ca_depth _ _ _ HC _ Hi) as Hd.
      assert (HD : (fold_right (fun w m => Nat.max (depth w) m) 0%nat (map (wr_turn wr) (sg_turns g)) <= 12)%nat).
      { apply depth_list. eapply Forall_impl; [|exact Ht]. intros t Hx. apply turn_ok. exact Hx. }
      lia.
    - unfold rd_game.
      change (fields [txt "id"; txt "player1"; txt "player2"; txt "turns"; txt "winner"; txt "initial_state"] (JObj [(txt "id", JStr (sg_id g)); (txt "player1", wr_agent (sg_p1 g)); (txt "player2", wr_agent (sg_p2 g));
          (txt "turns", JArr (map (wr_turn wr) (sg_turns g))); (txt "winner", wr_agent (sg_winner g)); (txt "initial_state", wr (sg_init g))]))
        with (Some [Some (JStr (sg_id g)); Some (wr_agent (sg_p1 g)); Some (wr_agent (sg_p2 g)); Some (JArr (map (wr_turn wr) (sg_turns g))); Some (wr_agent (sg_winner g)); Some (wr (sg_init g))]).
      cbv iota. cbn [rd_str obind]. rewrite !agent_rd. cbn [obind rd_vec]. rewrite omap_id; [|eapply Forall_impl; [|exact Ht]; intros t Hx; apply turn_ok; exact Hx].
      cbn [obind]. rewrite (ca_rd _ _ _ HC _ Hi). destruct g; reflexivity.
  Qed.
  Lemma game_load g : typed_game ok g -> load_game rd (print 0 (wr_game wr g)) = Some g.
  Proof. intros H. destruct (game_ok g H) as (H1 & H2 & H3). unfold load_game. rewrite (parse_print _ H1 H2). exact H3. Qed.
  Lemma game_back v g : rd_game rd v = Some g -> typed_game ok g.
  Proof.
    intros H. unfold rd_game in H. destruct (fields _ v) as [[|[i|] [|[a|] [|[b|] [|[t|] [|[w|] [|[s|] [|]]]]]]]|]; try discriminate H.
    destruct (rd_str i); cbn [obind] in H; [|discriminate]. destruct (rd_agent a); cbn [obind] in H; [|discriminate]. destruct (rd_agent b); cbn [obind] in H; [|discriminate].
    destruct (rd_vec (rd_turn rd) t) as [t'|] eqn:Et; cbn [obind] in H; [|discriminate]. destruct (rd_agent w); cbn [obind] in H; [|discriminate].
    destruct (rd s) as [s'|] eqn:Es; cbn [obind] in H; [|discriminate]. injection H as <-. split; cbn [sg_turns sg_init].
    - eapply vec_back; [|exact Et]. apply turn_back.
    - eapply (ca_back _ _ _ HC). exact Es.
  Qed.
  Lemma load_back t g : load_game rd t = Some g -> typed_game ok g.
  Proof. unfold load_game. destruct (parse t) as [v|]; cbn [obind]; [apply game_back|discriminate]. Qed.

  (** ** directories *)
  Definition json_files (d : dir) : list text := flat_map (fun e => match snd e with Some t => if ends_json (fst e) then [t] else [] | None => [] end) d.
  Lemma load_all_files (d : dir) : load_all rd d = omap (load_game rd) (json_files d).
  Proof.
    induction d as [|[n [t|]] d IH]; cbn [load_all json_files flat_map fst snd]; [reflexivity| |exact IH]. destruct (ends_json n); cbn [app]; [|exact IH].
    fold (json_files d). cbn [omap]. rewrite IH. reflexivity.
  Qed.
  Lemma omap_app {A B} (f : A -> option B) l1 l2 y1 y2 : omap f l1 = Some y1 -> omap f l2 = Some y2 -> omap f (l1 ++ l2) = Some (y1 ++ y2).
  Proof.
    revert y1. induction l1 as [|a l1 IH]; intros y1 H1 H2; cbn [omap app] in *; [injection H1 as <-; exact H2|].
    destruct (f a) as [b|]; cbn [obind] in *; [|discriminate]. destruct (omap f l1) as [bs|]; cbn [obind] in *; [|discriminate]. injection H1 as <-. rewrite (IH bs eq_refl H2). reflexivity.
  Qed.
  Lemma omap_perm {A B} (f : A -> option B) l l' : Permutation l l' -> forall ys, omap f l = Some ys -> exists ys', omap f l' = Some ys' /\ Permutation ys ys'.
  Proof.
    induction 1 as [|x l l' HP IH|x y l|l l' l'' HP1 IH1 HP2 IH2]; intros ys H.
    - exists ys. auto.
    - cbn [omap] in *. destruct (f x) as [b|]; cbn [obind] in *; [|discriminate]. destruct (omap f l) as [bs|]; cbn [obind] in *; [|discriminate]. injection H as <-.
      destruct (IH bs eq_refl) as (bs' & -> & Hp). exists (b :: bs'). split; [reflexivity|constructor; exact Hp].
    - cbn [omap] in *. destruct (f y) as [b|]; cbn [obind] in *; [|discriminate]. destruct (f x) as [c|]; cbn [obind] in *; [|discriminate].
      destruct (omap f l) as [bs|]; cbn [obind] in *; [|discriminate]. injection H as <-. exists (c :: b :: bs). split; [reflexivity|constructor].
    - destruct (IH1 ys H) as (y1 & E1 & P1). destruct (IH2 y1 E1) as (y2 & E2 & P2). exists y2. split; [exact E2|]. eapply Permutation_trans; eassumption.
  Qed.
  Lemma flat_map_perm {A B} (f : A -> list B) l l' : Permutation l l' -> Permutation (flat_map f l) (flat_map f l').
  Proof. intros H. apply Permutation_flat_map. exact H. Qed.
  Lemma ends_ok s : ends_json (s ++ txt ".json") = true.
  Proof.
    unfold ends_json. rewrite app_length. change (length (txt ".json")) with 5%nat. replace (length s + 5 - 5)%nat with (length s) by lia.
    rewrite skipn_app, skipn_all, Nat.sub_diag. apply teqb_eq. reflexivity.
  Qed.
  Lemma put_new n t (d : dir) : (forall e, In e d -> fst e <> n) -> put n t d = (n, Some t) :: d.
  Proof.
    intros H. unfold put. f_equal. induction d as [|e d IH]; [reflexivity|]. cbn [filter].
    destruct (teqb (fst e) n) eqn:E; [apply teqb_eq in E; exfalso; apply (H e); [left; reflexivity|exact E]|]. cbn [negb]. rewrite IH; [reflexivity|]. intros x Hx. apply H. right. exact Hx.
  Qed.
  Lemma save_all_files gs : forall d, NoDup (map sg_id gs) -> (forall g e, In g gs -> In e d -> fst e <> file_name g) ->
    Permutation (save_all wr gs d) (map (fun g => (file_name g, Some (print 0 (wr_game wr g)))) gs ++ d).
  Proof.
    unfold save_all. induction gs as [|g gs IH]; intros d HN HD; [apply Permutation_refl|]. cbn [fold_left map app]. inversion HN as [|? ? Hn HN']; subst.
    unfold save_game at 2. rewrite put_new by (intros e He; apply HD; [left; reflexivity|exact He]).
    eapply Permutation_trans; [apply IH; [exact HN'|]|].
    - intros g' e Hg [<-|He]; [|apply HD; [right; exact Hg|exact He]]. cbn [fst]. unfold file_name. intros E. apply app_inv_tail in E. apply Hn. rewrite E. apply in_map. exact Hg.
    - apply Permutation_sym, Permutation_middle.
  Qed.
  Lemma saved_files_loaded gs d old : NoDup (map sg_id gs) -> (forall g e, In g gs -> In e d -> fst e <> file_name g) -> Forall (typed_game ok) gs ->
    load_all rd d = Some old -> forall d', Permutation d' (save_all wr gs d) -> exists l, load_all rd d' = Some l /\ Permutation l (gs ++ old).
  Proof.
    intros HN HD HT Ho d' HP. rewrite load_all_files in *.
    assert (E : omap (load_game rd) (json_files (map (fun g => (file_name g, Some (print 0 (wr_game wr g)))) gs ++ d)) = Some (gs ++ old)).
    { unfold json_files. rewrite flat_map_app. apply omap_app; [|exact Ho]. clear -HT HC. induction HT as [|g gs Hg HT IH]; [reflexivity|]. cbn [map flat_map fst snd].
      unfold file_name at 1. rewrite ends_ok. cbn [app omap]. rewrite (game_load g Hg). cbn [obind]. rewrite IH. reflexivity. }
    assert (HP2 : Permutation (json_files (map (fun g => (file_name g, Some (print 0 (wr_game wr g)))) gs ++ d)) (json_files d')).
    { apply flat_map_perm. apply Permutation_sym. eapply Permutation_trans; [exact HP|]. apply save_all_files; assumption. }
    destruct (omap_perm _ _ _ HP2 _ E) as (ys & E2 & P2). exists ys. split; [exact E2|]. apply Permutation_sym. exact P2.
  Qed.
End Games.

(** ** C66: a saved game is loaded unchanged *)
Lemma C66_tictactoe_lemma : forall g, typed_game typed_ttt g -> load_game rd_ttt (print 0 (wr_game wr_ttt g)) = Some g.
Proof. exact (game_load _ _ _ ttt_carries). Qed.
Lemma C66_backgammon_lemma : forall g, typed_game typed_bg g -> load_game rd_bg (print 0 (wr_game wr_bg g)) = Some g.
Proof. exact (game_load _ _ _ bg_carries). Qed.
Lemma C66_text_lemma : forall v, writable v -> (depth v < 128)%nat -> parse (print 0 v) = Some v.
Proof. exact parse_print. Qed.
Lemma C66_injective_lemma : forall v w, writable v -> writable w -> (depth v < 128)%nat -> (depth w < 128)%nat -> print 0 v = print 0 w -> v = w.
Proof. intros v w Hv Hw Dv Dw E. pose proof (parse_print v Hv Dv) as E1. rewrite E, (parse_print w Hw Dw) in E1. congruence. Qed.

(** ** C67: what loading accepts *)
Lemma C67_tictactoe_lemma : forall t g, load_game rd_ttt t = Some g -> typed_game typed_ttt g /\ load_game rd_ttt (print 0 (wr_game wr_ttt g)) = Some g.
Proof. intros t g H. pose proof (load_back _ _ _ ttt_carries t g H) as HT. split; [exact HT|apply C66_tictactoe_lemma; exact HT]. Qed.
Lemma C67_backgammon_lemma : forall t g, load_game rd_bg t = Some g -> typed_game typed_bg g /\ load_game rd_bg (print 0 (wr_game wr_bg g)) = Some g.
Proof. intros t g H. pose proof (load_back _ _ _ bg_carries t g H) as HT. split; [exact HT|apply C66_backgammon_lemma; exact HT]. Qed.
Lemma filter_perm {A} (f : A -> bool) l l' : Permutation l l' -> Permutation (filter f l) (filter f l').
Proof.
  induction 1 as [|x l l' HP IH|x y l|l l' l'' HP1 IH1 HP2 IH2]; cbn [filter]; [constructor| | |eapply Permutation_trans; eassumption].
  - destruct (f x); [constructor|]; exact IH.
  - destruct (f x), (f y); try apply Permutation_refl. constructor.
Qed.
Lemma field_perm ms ms' k : Permutation ms ms' -> field ms k = field ms' k.
Proof.
  intros H. unfold field. pose proof (filter_perm (fun m => teqb (fst m) k) _ _ H) as HP.
  destruct (filter _ ms) as [|m [|m2 l]].
  - apply Permutation_nil in HP. rewrite HP. reflexivity.
  - apply Permutation_length_1_inv in HP. rewrite HP. reflexivity.
  - apply Permutation_length in HP. destruct (filter _ ms') as [|? [|? ?]]; cbn in HP; try lia. reflexivity.
Qed.
Lemma field_extra ms xs k : (forall e, In e xs -> fst e <> k) -> field (ms ++ xs) k = field ms k.
Proof.
  intros H. unfold field. rewrite filter_app. replace (filter (fun m => teqb (fst m) k) xs) with (@nil (text * json)); [rewrite app_nil_r; reflexivity|].
  symmetry. induction xs as [|e xs IH]; [reflexivity|]. cbn [filter]. destruct (teqb (fst e) k) eqn:E; [apply teqb_eq in E; exfalso; apply (H e); [left; reflexivity|exact E]|].
  apply IH. intros x Hx. apply H. right. exact Hx.
Qed.
Lemma omap_ext {A B} (f g : A -> option B) l : (forall a, In a l -> f a = g a) -> omap f l = omap g l.
Proof. induction l as [|a l IH]; intros H; [reflexivity|]. cbn [omap]. rewrite (H a) by (left; reflexivity). rewrite IH; [reflexivity|]. intros x Hx. apply H. right. exact Hx. Qed.
Lemma C67_field_order_lemma : forall T (rd : json -> option T) ms xs ms', Permutation ms' (ms ++ xs) ->
  (forall e, In e xs -> ~ In (fst e) (map txt ["id"; "player1"; "player2"; "turns"; "winner"; "initial_state"]%string)) -> rd_game rd (JObj ms') = rd_game rd (JObj ms).
Proof.
  intros T rd ms xs ms' HP Hx. unfold rd_game, fields.
  rewrite (omap_ext (field ms') (field ms)); [reflexivity|]. intros k Hk. rewrite (field_perm _ _ k HP). apply field_extra. intros e He E. apply (Hx e He). rewrite E. exact Hk.
Qed.
Lemma blank_ws c : ws c = true <-> In c (map ascii_of_nat [32; 10; 13; 9]%nat).
Proof.
  split.
  - destruct c as [[] [] [] [] [] [] [] []]; intros H; try discriminate H; vm_compute; tauto.
  - intros [<- | [<- | [<- | [<- | []]]]]; reflexivity.
Qed.
Lemma skip_blank t : skip t = [] <-> forall c, In c t -> In c (map ascii_of_nat [32; 10; 13; 9]%nat).
Proof.
  induction t as [|c t IH]; cbn [skip]; [split; [intros _ c []|reflexivity]|]. destruct (ws c) eqn:E.
  - rewrite IH. split; intros H x; [intros [<- | Hx]; [apply blank_ws, E|exact (H x Hx)]|intros Hx; apply H; right; exact Hx].
  - split; [discriminate|]. intros H. rewrite (proj2 (blank_ws c) (H c (or_introl eq_refl))) in E. discriminate E.
Qed.
Lemma C67_trailing_lemma : forall v t, writable v -> (depth v < 128)%nat ->
  let whole := parse (print 0 v ++ ascii_of_nat 10 :: t) in
  ((forall c, In c t -> In c (map ascii_of_nat [32; 10; 13; 9]%nat)) -> whole = Some v) /\ (~ (forall c, In c t -> In c (map ascii_of_nat [32; 10; 13; 9]%nat)) -> whole = None).
Proof.
  intros v t HW Hd. cbv zeta. assert (E : parse (print 0 v ++ ascii_of_nat 10 :: t) = match skip t with [] => Some v | _ => None end).
  { unfold parse. rewrite (reads_value v HW 128%nat 0%nat Hd (print 0 v ++ ascii_of_nat 10 :: t) (ascii_of_nat 10 :: t)); [reflexivity|repeat split; reflexivity|]. apply skip_solid, opens_solid, print_opens. }
  rewrite E. split; intros H.
  - apply skip_blank in H. rewrite H. reflexivity.
  - destruct (skip t) eqn:Es; [|reflexivity]. exfalso. apply H. apply skip_blank. exact Es.
Qed.
Lemma C67_missing_lemma : forall T (rd : json -> option T) ms k, In k (map txt ["id"; "player1"; "player2"; "turns"; "winner"; "initial_state"]%string) ->
  count_occ (list_eq_dec ascii_dec) (map fst ms) k <> 1%nat -> rd_game rd (JObj ms) = None.
Proof.
  intros T rd ms k Hk Hc. assert (HF : field ms k = Some None \/ field ms k = None).
  { assert (EL : length (filter (fun m => teqb (fst m) k) ms) = count_occ (list_eq_dec ascii_dec) (map fst ms) k).
    { clear. induction ms as [|m ms IH]; [reflexivity|]. cbn [filter map count_occ]. unfold teqb at 1. destruct (list_eq_dec ascii_dec (fst m) k); cbn [length]; lia. }
    unfold field. destruct (filter _ ms) as [|m [|m2 l]]; [left; reflexivity|cbn in EL; lia|right; reflexivity]. }
  unfold rd_game, fields. cbn [omap].
  cbn [map In] in Hk. destruct Hk as [<-|[<-|[<-|[<-|[<-|[<-|[]]]]]]]; destruct HF as [-> | ->]; cbn [obind];
    repeat (match goal with |- context [obind (field ms ?k) _] => destruct (field ms k) as [[?|]|] end; cbn [obind]; try reflexivity).
  all: reflexivity.
Qed.

(** ** C68: whole directories *)
Lemma C68_tictactoe_lemma : forall gs d old, NoDup (map sg_id gs) -> (forall g e, In g gs -> In e d -> fst e <> file_name g) -> Forall (typed_game typed_ttt) gs ->
  load_all rd_ttt d = Some old -> forall d', Permutation d' (save_all wr_ttt gs d) -> exists l, load_all rd_ttt d' = Some l /\ Permutation l (gs ++ old).
Proof. exact (saved_files_loaded _ _ _ ttt_carries). Qed.
Lemma C68_backgammon_lemma : forall gs d old, NoDup (map sg_id gs) -> (forall g e, In g gs -> In e d -> fst e <> file_name g) -> Forall (typed_game typed_bg) gs ->
  load_all rd_bg d = Some old -> forall d', Permutation d' (save_all wr_bg gs d) -> exists l, load_all rd_bg d' = Some l /\ Permutation l (gs ++ old).
Proof. exact (saved_files_loaded _ _ _ bg_carries). Qed.
Lemma C68_same_id_lemma : forall T (wr : T -> json) g h d, sg_id g = sg_id h -> save_all wr [g; h] d = save_all wr [h] d.
Proof.
  intros T wr g h d E. unfold save_all. cbn [fold_left]. unfold save_game, file_name. rewrite E. unfold put. cbn [filter fst].
  replace (teqb (sg_id h ++ txt ".json") (sg_id h ++ txt ".json")) with true by (symmetry; apply teqb_eq; reflexivity). cbn [negb]. f_equal.
  induction d as [|e d IH]; [reflexivity|]. cbn [filter]. destruct (negb (teqb (fst e) (sg_id h ++ txt ".json"))) eqn:E2; cbn [filter]; [rewrite E2; f_equal; exact IH|exact IH].
Qed.
Lemma C68_bad_file_lemma : forall T (rd : json -> option T) d, load_all rd d = None <-> exists n t, In (n, Some t) d /\ ends_json n = true /\ load_game rd t = None.
Proof.
  intros T rd. induction d as [|[n [t|]] d IH]; cbn [load_all].
  - split; [discriminate|intros (n & t & [] & _)].
  - destruct (ends_json n) eqn:E.
    + destruct (load_game rd t) as [g|] eqn:EL; cbn [obind].
      * split.
        { destruct (load_all rd d) as [gs|]; cbn [obind]; [discriminate|]. intros _. destruct (proj1 IH eq_refl) as (n' & t' & Hin & H1 & H2). exists n', t'. split; [right; exact Hin|auto]. }
        { intros (n' & t' & [[= <- <-]|Hin] & H1 & H2); [congruence|]. rewrite (proj2 IH); [reflexivity|]. exists n', t'. auto. }
      * split; [intros _; exists n, t; split; [left; reflexivity|auto]|reflexivity].
    + rewrite IH. split; intros (n' & t' & Hin & H1 & H2); [exists n', t'; split; [right; exact Hin|auto]|]. destruct Hin as [[= <- <-]|Hin]; [congruence|]. exists n', t'. auto.
  - rewrite IH. split; intros (n' & t' & Hin & H1 & H2); [exists n', t'; split; [right; exact Hin|auto]|]. destruct Hin as [[=]|Hin]. exists n', t'. auto.
Qed.

(** ** the games of a match *)
Lemma report_inits G may tpow t1 t2 (res : result G) starts ws : report may tpow t1 t2 res starts ws ->
  forall g, In g (r_games res) -> exists i r r', (i < 400)%nat /\ first_state i r = Ok (vg_init g, r').
Proof.
  intros HR g Hg. eapply Permutation_in in Hg; [|apply (rep_games _ _ _ _ _ _ _ _ HR)]. apply in_map_iff in Hg. destruct Hg as ([s w] & <- & Hin). cbn [fst snd] in *.
  apply in_combine_l in Hin. destruct (In_nth_error _ _ Hin) as [i Ei]. destruct (rep_start _ _ _ _ _ _ _ _ HR i s Ei) as (id & r & r' & _ & EF).
  exists i, r, r'. split; [|exact EF]. rewrite <- (rep_num _ _ _ _ _ _ _ _ HR). apply nth_error_Some. congruence.
Qed.
Lemma F2_length {A B} (R : A -> B -> Prop) l l' : Forall2 R l l' -> length l = length l'.
Proof. induction 1; cbn; congruence. Qed.
Section Match.
  Variables (G : Game) (wr : St G -> json) (rd : json -> option (St G)) (ok : St G -> Prop).
  Hypothesis HC : carries wr rd ok.
  Hypothesis first_ok : forall i r s r', (i < 400)%nat -> first_state (G := G) i r = Ok (s, r') -> ok s.
  Lemma match_saved I tsum dirichlet unif tpow cfg hash order p1 p2 : setting G I tsum dirichlet unif tpow cfg hash order p1 p2 ->
    forall ln nanoid fuel r res r', play ln tsum dirichlet unif tpow nanoid cfg hash order p1 p2 fuel r = Ok (res, r') ->
    forall name d old d', NoDup (map (fun g => name (vg_id g)) (r_games res)) -> (forall g e, In g (r_games res) -> In e d -> fst e <> name (vg_id g) ++ txt ".json") ->
    load_all rd d = Some old -> Permutation d' (save_all wr (map (saved name) (r_games res)) d) ->
    exists l, load_all rd d' = Some l /\ Permutation l (map (saved name) (r_games res) ++ old) /\ length l = (400 + length old)%nat.
  Proof.
    intros HS ln nanoid fuel r res r' E name d old d' HN HD Ho HP.
    destruct (C39_accounting_lemma _ _ _ _ _ _ _ _ _ _ _ HS _ _ _ _ _ _ E) as (starts & ws & HR & Hbg).
    destruct (saved_files_loaded wr rd ok HC (map (saved name) (r_games res)) d old) with (d' := d') as (l & El & HPl); try assumption.
    - rewrite map_map. exact HN.
    - intros g e Hg. apply in_map_iff in Hg. destruct Hg as (v & <- & Hv). apply HD. exact Hv.
    - apply Forall_forall. intros g Hg. apply in_map_iff in Hg. destruct Hg as (v & <- & Hv). split; cbn [saved sg_turns sg_init].
      + destruct (C42_no_turns_lemma _ _ _ _ _ _ _ _ _ _ _ _ _ _ _ _ E v Hv) as [-> _]. constructor.
      + destruct (report_inits _ _ _ _ _ _ _ _ HR v Hv) as (i & q & q' & Hi & EF). eapply first_ok; eassumption.
    - exists l. split; [exact El|]. split; [exact HPl|]. apply Permutation_length in HPl. rewrite HPl, app_length, map_length.
      f_equal. rewrite (Permutation_length (rep_games _ _ _ _ _ _ _ _ HR)), map_length, combine_length, <- (F2_length _ _ _ (rep_end _ _ _ _ _ _ _ _ HR)), (rep_num _ _ _ _ _ _ _ _ HR). reflexivity.
  Qed.
End Match.
Lemma C68_ttt_match_lemma : forall pr tsum dirichlet unif tpow cfg hash order p1 p2, setting (ttt_game pr) ttt_pos tsum dirichlet unif tpow cfg hash order p1 p2 ->
  forall ln nanoid fuel r res r', play ln tsum dirichlet unif tpow nanoid cfg hash order p1 p2 fuel r = Ok (res, r') ->
  forall name d old d', NoDup (map (fun g => name (vg_id g)) (r_games res)) -> (forall g e, In g (r_games res) -> In e d -> fst e <> name (vg_id g) ++ txt ".json") ->
  load_all rd_ttt d = Some old -> Permutation d' (save_all wr_ttt (map (saved name) (r_games res)) d) ->
  exists l, load_all rd_ttt d' = Some l /\ Permutation l (map (saved name) (r_games res) ++ old) /\ length l = (400 + length old)%nat.
Proof.
  intros pr tsum dirichlet unif tpow cfg hash order p1 p2 HS. apply (match_saved (ttt_game pr) wr_ttt rd_ttt typed_ttt ttt_carries) with (I := ttt_pos); [|exact HS].
  intros i r s r' Hi E. destruct (ttt_first pr i r) as (s1 & r1 & E1 & Hb & Hp & Hid). rewrite E in E1. injection E1 as -> _.
  unfold typed_ttt, is_i8, is_u64. rewrite Hb, Hp, Hid. split; [destruct (i <? 200)%nat; lia|]. split; [reflexivity|]. split; [|lia]. cbn. repeat constructor; lia.
Qed.
Lemma initial_typed : typed_board initial_board.
Proof. split; [reflexivity|]. split; [cbn; repeat (apply Forall_cons; [unfold is_i8; lia|]); apply Forall_nil|]. cbn. unfold is_u8. lia. Qed.
Lemma C68_bg_match_lemma : forall pr tsum dirichlet unif tpow cfg hash order p1 p2, setting (bg_game pr) bg_pos tsum dirichlet unif tpow cfg hash order p1 p2 ->
  forall ln nanoid fuel r res r', play ln tsum dirichlet unif tpow nanoid cfg hash order p1 p2 fuel r = Ok (res, r') ->
  forall name d old d', NoDup (map (fun g => name (vg_id g)) (r_games res)) -> (forall g e, In g (r_games res) -> In e d -> fst e <> name (vg_id g) ++ txt ".json") ->
  load_all rd_bg d = Some old -> Permutation d' (save_all wr_bg (map (saved name) (r_games res)) d) ->
  exists l, load_all rd_bg d' = Some l /\ Permutation l (map (saved name) (r_games res) ++ old) /\ length l = (400 + length old)%nat.
Proof.
  intros pr tsum dirichlet unif tpow cfg hash order p1 p2 HS. apply (match_saved (bg_game pr) wr_bg rd_bg typed_bg bg_carries) with (I := bg_pos); [|exact HS].
  intros i r s r' Hi E. destruct (bg_first pr i r) as (s1 & r1 & E1 & Hb & Hp & Hr & Hs & Hid). rewrite E in E1. injection E1 as -> _.
  unfold typed_bg, is_i8, is_u64. rewrite Hb, Hp, Hid. unfold rolled, die in Hr. unfold is_u8.
  split; [exact initial_typed|]. destruct (roll s1); cbn [fst snd] in *. split; [lia|split; [lia|split; [destruct (i <? 200)%nat; lia|lia]]].
Qed.

(** ** a match whose ids are all different: the ids count up *)
Definition count_id (r : rng) : Z * rng := (Z.of_nat (pos r), mkRng (src r) (S (pos r))).
Definition tally (z : Z) : text := repeat "a"%char (Z.to_nat z).
Lemma ttt_first_rng pr i r s r1 : first_state (G := ttt_game pr) i r = Ok (s, r1) -> r1 = r.
Proof.
  unfold first_state. cbn [ttt_game g_skip g_new g_det g_set_id]. destruct (num_games / 2 <=? i)%nat; cbn [bind].
  - destruct (ttt_skip_turn pr ttt_new) as [s1|]; cbn [bind]; [|discriminate]. intros H. injection H as _ ->. reflexivity.
  - intros H. injection H as _ ->. reflexivity.
Qed.
Lemma begun_ids pr t1 t2 i r gs : begun (G := ttt_game pr) t1 t2 count_id i r gs -> map vg_id gs = map Z.of_nat (seq (pos r) (length gs)).
Proof.
  induction 1 as [|i r s r1 id r2 gs E1 E2 _ IH]; [reflexivity|]. apply ttt_first_rng in E1. subst r1. unfold count_id in E2. injection E2 as <- <-.
  cbn [map length seq]. f_equal. exact IH.
Qed.
Lemma count_match : forall pr r, exists res r', play (G := ttt_game pr) (fun x => x) tsum0 dir0 unif0 pow1 count_id (cfg0 1 1) hash0 order2 random_player random_player 400 r = Ok (res, r')
  /\ NoDup (map (fun g => tally (vg_id g)) (r_games res)).
Proof.
  intros pr r. pose proof (random_setting _ _ (ttt_match pr)) as HS.
  destruct (C41_terminates_lemma _ _ _ _ _ _ _ _ _ _ _ HS (ttt_live pr) (fun _ x _ E => E) (fun x => x) count_id r) as (res & r' & H). exists res, r'. specialize (H 400%nat (Nat.le_refl _)). split; [exact H|].
  destruct (C39_accounting_lemma _ _ _ _ _ _ _ _ _ _ _ HS _ _ _ _ _ _ H) as (starts & ws & HR & HB).
  eapply Permutation_NoDup; [apply Permutation_sym, Permutation_map, (rep_games _ _ _ _ _ _ _ _ HR)|].
  replace (map (fun g => tally (vg_id g)) (map (fun e => let (g, w) := e : vgame _ * Z in mkVg (vg_id g) (pl_type random_player) (pl_type random_player) [] (won_by (pl_type random_player) (pl_type random_player) w) (vg_init g)) (combine starts ws))) with (map tally (map vg_id starts)).
  - rewrite (begun_ids _ _ _ _ _ _ HB), map_map. apply FinFun.Injective_map_NoDup; [|apply seq_NoDup].
    intros x y E. apply (f_equal (@length ascii)) in E. unfold tally in E. rewrite !repeat_length, !Nat2Z.id in E. exact E.
  - rewrite !map_map. pose proof (rep_end _ _ _ _ _ _ _ _ HR) as HE. clear -HE. induction HE as [|g w starts ws _ _ IH]; [reflexivity|]. cbn [map combine fst snd]. f_equal. exact IH.
Qed.

(** the record of a match game and the saved record have the same fields *)
Lemma C68_fields_lemma : forall G (name : Z -> text) (g : vgame G),
  sg_id (saved name g) = name (vg_id g) /\ sg_p1 (saved name g) = vg_p1 g /\ sg_p2 (saved name g) = vg_p2 g /\ sg_winner (saved name g) = vg_winner g
  /\ sg_init (saved name g) = vg_init g /\ Forall2 (fun t u => st_roll t = t_roll G u /\ st_action t = t_action G u /\ st_player t = t_player G u) (sg_turns (saved name g)) (vg_turns g).
Proof. intros G name g. cbn. repeat (split; [reflexivity|]). induction (vg_turns g) as [|u l IH]; cbn; constructor; auto. Qed.
