(** * SeekApi: searches in Tic-Tac-Toe positions whose worth is known. *)
From Verif Require Import BaseFacts TttApi AlphaInst SeekSpec Witness.
Require Import ZifyBool ZifyNat.

(** ** the logarithm of the whole numbers up to 100, rounded to the nearest f32 *)
Definition ln_table : list (Z * Z) := [(0, 0); (0, 0); (11629080, -24); (9215828, -23); (11629080, -23); (13500944, -23); (15030368, -23); (16323477, -23); (8721810, -22); (9215828, -22); (9657742, -22); (10057502, -22); (10422454, -22); (10758177, -22); (11069009, -22); (11358386, -22); (11629080, -22); (11883358, -22); (12123098, -22); (12349872, -22); (12565012, -22); (12769653, -22); (12964772, -22); (13151216, -22); (13329724, -22); (13500944, -22); (13665447, -22); (13823742, -22); (13976279, -22); (14123462, -22); (14265656, -22); (14403186, -22); (14536350, -22); (14665416, -22); (14790628, -22); (14912211, -22); (15030368, -22); (15145287, -22); (15257142, -22); (15366091, -22); (15472282, -22); (15575850, -22); (15676923, -22); (15775617, -22); (15872042, -22); (15966300, -22); (16058486, -22); (16148689, -22); (16236994, -22); (16323477, -22); (16408214, -22); (16491272, -22); (16572717, -22); (16652611, -22); (16731012, -22); (8403987, -21); (8441774, -21); (8478893, -21); (8515366, -21); (8551216, -21); (8586463, -21); (8621127, -21); (8655228, -21); (8688783, -21); (8721810, -21); (8754325, -21); (8786343, -21); (8817880, -21); (8848949, -21); (8879565, -21); (8909740, -21); (8939488, -21); (8968819, -21); (8997746, -21); (9026279, -21); (9054429, -21); (9082206, -21); (9109620, -21); (9136681, -21); (9163396, -21); (9189776, -21); (9215828, -21); (9241560, -21); (9266980, -21); (9292096, -21); (9316915, -21); (9341443, -21); (9365688, -21); (9389656, -21); (9413353, -21); (9436785, -21); (9459958, -21); (9482878, -21); (9505550, -21); (9527980, -21); (9550172, -21); (9572132, -21); (9593864, -21); (9615374, -21); (9636665, -21); (9657742, -21)].
Definition whole (x : f32) : nat := match x with S754_finite false m e => Z.to_nat (if e <? 0 then Z.pos m / 2 ^ (- e) else Z.pos m * 2 ^ e) | _ => O end.
Definition ln100 (x : f32) : f32 := match nth (whole x) ln_table (0, 0) with (Z.pos m, e) => S754_finite false m e | _ => f0 end.

(** ** a network that knows the worth of every position *)
(** the position at offset [o] of a batch: the player to move follows from the number of stones *)
Definition seen (x : tensor Z) (o : nat) : ttt :=
  let b := map (fun i => if nth (o + i) (data x) 0 =? 1 then -1 else if nth (o + 18 + i) (data x) 0 =? 1 then 1 else 0) (seq 0 9) in
  mkTtt (if Nat.even (length (filter (fun v => negb (v =? 0)) b)) then -1 else 1) b 0.
Definition oracle : net :=
  mkNet (net_policy (net0 (repeat 1 9)))
        (fun x => let k := hd 0%nat (shape x) in mkT [k; 1%nat] (map (fun i => f32_of_Z (ttt_worth (seen x (27 * i)))) (seq 0 k))).
Lemma oracle_ok pr : net_ok (ttt_game pr) oracle.
Proof.
  intros x k sh Hx. destruct (net0_ok (ttt_game pr) (repeat 1 9) eq_refl x k sh Hx) as (H1 & H2 & _). split; [exact H1|]. split; [exact H2|].
  cbn [oracle net_value shape data]. rewrite Hx. cbn [hd]. split; [reflexivity|]. rewrite map_length, seq_length. reflexivity.
Qed.

Definition stones (b : list Z) : nat := length (filter (fun v => negb (v =? 0)) b).
Definition fair (s : ttt) : Prop := length (tboard s) = 9%nat /\ Forall (fun v => v = -1 \/ v = 0 \/ v = 1) (tboard s) /\ tplayer s = (if Nat.even (stones (tboard s)) then -1 else 1) /\ tid s = 0.
Lemma stones_set b i p : (i < length b)%nat -> nth i b 0 = 0 -> p <> 0 -> stones (set_nth b i p) = S (stones b).
Proof.
  revert i. induction b as [|v b IH]; intros [|i] Hi H0 Hp; cbn in Hi; try lia.
  - cbn in H0. subst. unfold stones. cbn. destruct (p =? 0) eqn:E; [lia|reflexivity].
  - cbn in H0. unfold stones in *. cbn [set_nth filter]. destruct (negb (v =? 0)); cbn [length]; rewrite IH; auto; lia.
Qed.
Lemma played_fair s : played s -> fair s.
Proof.
  intros H. induction H as [|s m s' H (HL & HF & HP & HI) Hw Hm E]; [split; [reflexivity|]; split; [cbn; repeat (apply Forall_cons; [auto|]); apply Forall_nil|split; reflexivity]|].
  apply (valid_moves_cell _ _ HL) in Hm. destruct Hm as [Hr Hc]. unfold ttt_apply_move in E. rewrite upd_ok in E by lia. cbn [bind] in E.
  assert (Hp : tplayer s = -1 \/ tplayer s = 1) by (rewrite HP; destruct (Nat.even _); auto).
  rewrite i8_ok in E by lia. cbn [bind] in E. injection E as <-. unfold fair. cbn [tboard tplayer tid]. rewrite set_nth_length. split; [exact HL|].
  split; [|split; [|exact HI]].
  - apply Forall_forall. intros v Hv. destruct (In_nth _ _ 0 Hv) as (j & Hj & <-). rewrite set_nth_length in Hj. rewrite nth_set_nth by lia. destruct (Nat.eqb j (Z.to_nat m)); [lia|].
    rewrite Forall_forall in HF. apply HF. apply nth_In. exact Hj.
  - rewrite stones_set; [|lia|exact Hc|lia]. rewrite HP. rewrite Nat.even_succ, <- Nat.negb_even. destruct (Nat.even (stones (tboard s))); reflexivity.
Qed.
Lemma seen_tensor s x : fair s -> ttt_as_tensor s = Ok x -> shape x = [1; 3; 3; 3]%nat /\ seen x 0 = s.
Proof.
  intros (HL & HF & HP & HI) E. destruct s as [p b i]. cbn [tboard tplayer tid] in *.
  do 9 (destruct b as [|? b]; [discriminate HL|]). destruct b; [|discriminate HL].
  rewrite (ttt_tensor_eq (mkTtt p [z; z0; z1; z2; z3; z4; z5; z6; z7] i) z z0 z1 z2 z3 z4 z5 z6 z7 eq_refl) in E. cbn [tboard] in E. apply (f_equal (fun o => match o with Ok x => x | Panic _ => x end)) in E. cbv beta iota in E. subst x. split; [reflexivity|].
  assert (HC : forall v, v = -1 \/ v = 0 \/ v = 1 -> (if (if v =? -1 then 1 else 0) =? 1 then -1 else if (if v =? 1 then 1 else 0) =? 1 then 1 else 0) = v) by (intros v [-> | [-> | ->]]; reflexivity).
  repeat match type of HF with Forall _ (_ :: _) => let h := fresh "h" in apply Forall_cons_iff in HF; destruct HF as [h HF] end.
  unfold seen. cbn [data map app seq Nat.add nth]. rewrite !HC by assumption. fold (stones [z; z0; z1; z2; z3; z4; z5; z6; z7]). rewrite <- HP, HI. reflexivity.
Qed.
Lemma oracle_exact : exact_net oracle.
Proof.
  intros s x Hs Hx. destruct (seen_tensor s x (played_fair s Hs) Hx) as [H1 H2]. cbn [oracle net_value]. rewrite H1. cbn [hd seq map]. change (27 * 0)%nat with 0%nat. rewrite H2. reflexivity.
Qed.

(** ** runs *)
Definition top {G} (st : store G) (i : nat) : bool :=
  match nth_error st 0, nth_error st i with
  | Some n, Some c => existsb (Nat.eqb i) (n_children n)
      && forallb (fun j => Nat.eqb j i || match nth_error st j with Some d => SFltb (n_visits d) (n_visits c) | None => true end) (n_children n)
  | _, _ => false
  end.
Lemma top_ok {G} (st : store G) i c m : top st i = true -> nth_error st i = Some c -> n_action c = Some m -> most_visited st 0 m.
Proof.
  unfold top. intros H Hc Ha. rewrite Hc in H. destruct (nth_error st 0) as [n|] eqn:En; [|discriminate H]. apply andb_prop in H. destruct H as [H1 H2]. apply existsb_exists in H1. destruct H1 as (x & Hx & Ex). apply Nat.eqb_eq in Ex. subst x.
  exists n, i, c. split; [exact En|]. split; [exact Hx|]. split; [exact Hc|]. split; [exact Ha|]. intros j d Hj Hd Hne. rewrite forallb_forall in H2. specialize (H2 j Hj). apply Bool.orb_prop in H2. destruct H2 as [H2|H2]; [apply Nat.eqb_eq in H2; congruence|].
  rewrite Hd in H2. exact H2.
Qed.
(** the settings of config-example.toml, without noise *)
Definition example_cfg (it : nat) : mcfg := mkCfg it (f32_of_Z 2) 400 f1 f0.

(** x at two opposite corners, o in the middle, o to move: a corner loses, an edge holds the draw *)
Definition corners : ttt := mkTtt 1 [-1; 0; 0; 0; 1; 0; 0; 0; -1] 0.
Lemma play_move s m s' : played s -> ttt_check_winner s = None -> existsb (Z.eqb m) (ttt_valid_moves s) = true -> ttt_apply_move Release s m = Ok s' -> played s'.
Proof. intros H Hw Hm E. apply existsb_exists in Hm. destruct Hm as (x & Hx & Ex). apply Z.eqb_eq in Ex. subst x. exact (pl_move s m s' H Hw Hx E). Qed.
Lemma corners_played : played corners.
Proof.
  eapply (play_move _ 8); [eapply (play_move _ 4); [eapply (play_move _ 0); [exact pl_new|reflexivity..]|reflexivity..]|reflexivity..].
Qed.
Definition seek (it : nat) : res (store (ttt_game Release) * rng) := alpha_mcts_parallel (G := ttt_game Release) tsum0 dir0 oracle (example_cfg it) [0%nat] [] [corners] rng0.
(** the move of the [i]-th node and whether it is the most visited one *)
Definition seek_top (it i : nat) : option Z :=
  match seek it with Ok (st, _) => if top st i then match nth_error st i with Some c => n_action c | None => None end else None | Panic _ => None end.
Lemma seek_top_ok it i m : seek_top it i = Some m -> exists st r', alpha_mcts_parallel (G := ttt_game Release) tsum0 dir0 oracle (example_cfg it) [0%nat] [] [corners] rng0 = Ok (st, r') /\ most_visited st 0 m.
Proof.
  unfold seek_top, seek. destruct (alpha_mcts_parallel (G := ttt_game Release) tsum0 dir0 oracle (example_cfg it) [0%nat] [] [corners] rng0) as [[st r']|]; [|discriminate]. destruct (top st i) eqn:E; [|discriminate]. destruct (nth_error st i) as [c|] eqn:Ec; [|discriminate]. intros H. exists st, r'. split; [reflexivity|exact (top_ok st i c m E Ec H)].
Qed.

(** x threatens to complete the first row; o to move *)
Definition threat : ttt := mkTtt 1 [-1; -1; 0; 1; 0; -1; 0; 0; 1] 0.
Lemma threat_played : played threat.
Proof.
  eapply (play_move _ 5); [eapply (play_move _ 8); [eapply (play_move _ 1); [eapply (play_move _ 3); [eapply (play_move _ 0); [exact pl_new|reflexivity..]|reflexivity..]|reflexivity..]|reflexivity..]|reflexivity..].
Qed.
Definition roll_out (it : nat) (r : rng) : option Z := match mct_search (G := ttt_game Release) ln100 threat 1 (example_cfg it) r with Ok (m, _) => Some m | Panic _ => None end.

Lemma roll_out_ok it r m : roll_out it r = Some m -> exists r', mct_search (G := ttt_game Release) ln100 threat 1 (example_cfg it) r = Ok (m, r').
Proof. unfold roll_out. destruct (mct_search (G := ttt_game Release) ln100 threat 1 (example_cfg it) r) as [[m' r']|]; [|discriminate]. intros H. exists r'. apply (f_equal (fun o => match o with Some x => x | None => 0 end)) in H. cbv beta iota in H. rewrite <- H. reflexivity. Qed.

(** ** C73 *)
Theorem C73_exact_network_lemma : exists nt s st r' m s',
  net_ok (ttt_game Release) nt /\ exact_net nt /\ played s /\ ttt_check_winner s = None /\ ttt_worth s = 0
  /\ alpha_mcts_parallel (G := ttt_game Release) tsum0 dir0 nt (example_cfg 20) [0%nat] [] [s] rng0 = Ok (st, r')
  /\ most_visited st 0 m /\ In m (ttt_valid_moves s) /\ ttt_apply_move Release s m = Ok s' /\ ttt_worth s' = 1.
Proof.
  assert (E : seek_top 20 2 = Some 2) by (vm_compute; reflexivity). apply seek_top_ok in E. destruct E as (st & r' & E & M).
  exists oracle, corners, st, r', 2, (mkTtt (-1) [-1; 0; 1; 0; 1; 0; 0; 0; -1] 0).
  split; [exact (oracle_ok Release)|]. split; [exact oracle_exact|]. split; [exact corners_played|]. split; [reflexivity|]. split; [vm_compute; reflexivity|].
  split; [exact E|]. split; [exact M|]. split; [vm_compute; tauto|]. split; [reflexivity|vm_compute; reflexivity].
Qed.
Theorem C73_more_iterations_lemma : exists st r' m s',
  alpha_mcts_parallel (G := ttt_game Release) tsum0 dir0 oracle (example_cfg 200) [0%nat] [] [corners] rng0 = Ok (st, r')
  /\ most_visited st 0 m /\ ttt_worth corners = 0 /\ ttt_apply_move Release corners m = Ok s' /\ ttt_worth s' = 1.
Proof.
  assert (E : seek_top 200 5 = Some 6) by (vm_compute; reflexivity). apply seek_top_ok in E. destruct E as (st & r' & E & M).
  exists st, r', 6, (mkTtt (-1) [-1; 0; 0; 0; 1; 0; 1; 0; -1] 0). split; [exact E|]. split; [exact M|]. split; [vm_compute; reflexivity|]. split; [reflexivity|vm_compute; reflexivity].
Qed.
(** ** C74 *)
Theorem C74_no_block_lemma : exists s m r' s' m' s'',
  played s /\ ttt_check_winner s = None /\ ttt_worth s = 0
  /\ mct_search (G := ttt_game Release) ln100 s (tplayer s) (example_cfg 100) rng0 = Ok (m, r')
  /\ In m (ttt_valid_moves s) /\ ttt_apply_move Release s m = Ok s'
  /\ In m' (ttt_valid_moves s') /\ ttt_apply_move Release s' m' = Ok s'' /\ ttt_check_winner s'' = Some (- tplayer s).
Proof.
  assert (E : roll_out 100 rng0 = Some 7) by (vm_compute; reflexivity). apply roll_out_ok in E. destruct E as (r' & E).
  exists threat, 7, r', (mkTtt (-1) [-1; -1; 0; 1; 0; -1; 0; 1; 1] 0), 2, (mkTtt 1 [-1; -1; -1; 1; 0; -1; 0; 1; 1] 0).
  split; [exact threat_played|]. split; [reflexivity|]. split; [vm_compute; reflexivity|]. split; [exact E|]. split; [vm_compute; tauto|]. split; [reflexivity|]. split; [vm_compute; tauto|]. split; reflexivity.
Qed.
