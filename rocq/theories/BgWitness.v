(** * BgWitness: a decision procedure for the rule book and concrete reachable
    positions in which the generator departs from the rules. *)
From Verif Require Import Base BaseFacts BgModel BgSpec BgStep BgGen BgTurn BgReach BgMirror.
Require Import ZifyBool ZifyNat.

(** ** Deciding legality *)
Definition onb (i : Z) : bool := (0 <=? i) && (i <=? 23).
Definition homeb (q : BgSpec.pos) (s : side) : bool :=
  (bar q s =? 0) && forallb (fun i => negb (0 <? men q s i) || (pip s i <=? 6)) (range 0 24).
Definition legalb (s : side) (d : Z) (q : BgSpec.pos) (m : mv) : bool :=
  match m with
  | Enter t => (0 <? bar q s) && (t =? entry s d) && negb (2 <=? men q (opp s) t)
  | Move f t => (bar q s =? 0) && onb f && (0 <? men q s f) && (t =? f + sign s * d) && onb t
                && negb (2 <=? men q (opp s) t)
  | Off i => homeb q s && onb i && (0 <? men q s i)
             && ((pip s i =? d)
                 || ((pip s i <? d)
                     && forallb (fun j => negb (0 <? men q s j) || (pip s j <=? pip s i)) (range 0 24)))
  end.
Lemma forall_points (P : Z -> bool) : forallb P (range 0 24) = true <-> forall i, on_board i -> P i = true.
Proof.
  rewrite forallb_forall. split; intros H i Hi; apply H.
  - apply In_range. unfold on_board in Hi. lia.
  - apply In_range in Hi. unfold on_board. lia.
Qed.
Lemma homeb_spec q s : homeb q s = true <-> all_home q s.
Proof.
  unfold homeb, all_home. rewrite andb_true_iff, forall_points, Z.eqb_eq. split; intros (H1 & H2); (split; [auto|]).
  - intros i Hi Hm. specialize (H2 i Hi). lia.
  - intros i Hi. destruct (Z.ltb_spec 0 (men q s i)) as [Hm|Hm]; [|reflexivity].
    specialize (H2 i Hi Hm). cbn. lia.
Qed.
Lemma legalb_spec s d q m : legalb s d q m = true <-> legal s d q m.
Proof.
  destruct m as [t|f t|i]; cbn [legalb].
  - rewrite !andb_true_iff, negb_true_iff. split.
    + intros ((H1 & H2) & H3). assert (t = entry s d) as -> by lia. constructor; [lia|unfold blocked; lia].
    + intros H. inversion H as [HB HN| | |]; subst. unfold blocked in HN. repeat split; lia.
  - rewrite !andb_true_iff, negb_true_iff. unfold onb. split.
    + intros (((((H1 & H2) & H3) & H4) & H5) & H6). assert (t = f + sign s * d) as -> by lia.
      constructor; unfold on_board, blocked; lia.
    + intros H. inversion H as [|i HB Hi Hm Ho HN| |]; subst. unfold blocked, on_board in *.
      rewrite !andb_true_iff. repeat split; lia.
  - rewrite !andb_true_iff, homeb_spec, orb_true_iff, andb_true_iff, forall_points. unfold onb. split.
    + intros (((H1 & H2) & H3) & [H4|(H4 & H5)]).
      * apply legal_off_exact; auto; unfold on_board; lia.
      * apply legal_off_over; [auto|unfold on_board; lia|lia|lia|]. intros j Hj Hm. specialize (H5 j Hj). lia.
    + intros H. inversion H as [| |i' HA Hi Hm Hp|i' HA Hi Hm Hp Hf]; subst; unfold on_board in Hi; rewrite ?andb_true_iff.
      * split; [split; [split; [exact HA|lia]|lia]|left; lia].
      * split; [split; [split; [exact HA|lia]|lia]|right]. split; [lia|]. intros j Hj.
        destruct (Z.ltb_spec 0 (men q s j)) as [Hj'|Hj']; [|reflexivity]. specialize (Hf j Hj Hj'). cbn. lia.
Qed.
Lemma not_legal s d q m : legalb s d q m = false -> ~ legal s d q m.
Proof. intros H HL. apply legalb_spec in HL. congruence. Qed.
Definition cands (s : side) (d : Z) : list mv :=
  Enter (entry s d) :: flat_map (fun i => [Move i (i + sign s * d); Off i]) (range 0 24).
Definition stuckb (s : side) (dice : list Z) (q : BgSpec.pos) : bool :=
  forallb (fun d => forallb (fun m => negb (legalb s d q m)) (cands s d)) dice.
Lemma legal_cands s d q m : legal s d q m -> In m (cands s d).
Proof.
  intros H. unfold cands. assert (HP : forall i, on_board i -> In i (range 0 24)).
  { intros i Hi. apply In_range. unfold on_board in Hi. lia. }
  destruct H as [|i HB Hi Hm|i HA Hi|i HA Hi]; [now left| | |]; right; apply in_flat_map; exists i;
    (split; [auto|]); cbn; auto.
Qed.
Lemma stuckb_spec s dice q : stuckb s dice q = true <-> stuck s dice q.
Proof.
  unfold stuckb, stuck. rewrite forallb_forall. split.
  - intros H d m Hd HL. specialize (H d Hd). rewrite forallb_forall in H.
    specialize (H m (legal_cands _ _ _ _ HL)). apply legalb_spec in HL. rewrite HL in H. discriminate.
  - intros H d Hd. rewrite forallb_forall. intros m _. destruct (legalb s d q m) eqn:E; [|reflexivity].
    apply legalb_spec in E. exfalso. eapply H; eauto.
Qed.
Definition clearb (q : BgSpec.pos) (s : side) : bool :=
  forallb (fun i => negb (pip s i <=? 6) || (men q (opp s) i =? 0)) (range 0 24).
Lemma clearb_spec q s : clearb q s = true <-> clear_home q s.
Proof.
  unfold clearb, clear_home. rewrite forall_points. split.
  - intros H i Hi Hp. specialize (H i Hi). lia.
  - intros H i Hi. destruct (Z.leb_spec (pip s i) 6) as [Hp|Hp]; [|reflexivity]. specialize (H i Hi Hp). cbn. lia.
Qed.
Definition wfb (b : board) : bool :=
  (length (pts b) =? 24)%nat && (0 <=? hit1 b) && (0 <=? hit2 b) && (0 <=? col1 b) && (0 <=? col2 b)
  && (checkers (view b) P1 =? 15) && (checkers (view b) P2 =? 15).
Lemma wfb_spec b : wfb b = true -> WF b.
Proof. unfold wfb, WF. rewrite !andb_true_iff, Nat.eqb_eq. intros. repeat split; lia. Qed.

(** no legal play uses both dice *)
Definition no_twob (s : side) (d e : Z) (q : BgSpec.pos) : bool :=
  forallb (fun m => negb (legalb s d q m) || stuckb s [e] (effect q s m)) (cands s d).
Lemma no_two s d e q ms :
  no_twob s d e q = true -> no_twob s e d q = true ->
  play (legal s) (fun _ _ => True) s [d; e] q ms -> (length ms <= 1)%nat.
Proof.
  intros H1 H2 Hp. unfold no_twob in *. rewrite forallb_forall in H1, H2.
  inversion Hp as [|l1 x l2 q' m ms' Hm Hms Hd]; subst; [cbn; lia|].
  inversion Hms as [|k1 y k2 q'' n ms'' Hn Hns Hd']; subst; [cbn; lia|]. exfalso.
  assert (Hc : (x = d /\ y = e) \/ (x = e /\ y = d)).
  { destruct l1 as [|a [|b l1]]; cbn in Hd.
    - injection Hd as -> ->. destruct k1 as [|? [|]]; cbn in Hd'; try discriminate. injection Hd' as -> _. auto.
    - injection Hd as -> -> ->. destruct k1 as [|? [|]]; cbn in Hd'; try discriminate. injection Hd' as -> _. auto.
    - injection Hd as _ _ Hd. destruct l1; discriminate. }
  destruct Hc as [(-> & ->)|(-> & ->)].
  - specialize (H1 m (legal_cands _ _ _ _ Hm)). apply legalb_spec in Hm. rewrite Hm in H1. cbn [negb orb] in H1.
    apply stuckb_spec in H1. apply (H1 e n); [now left|exact Hn].
  - specialize (H2 m (legal_cands _ _ _ _ Hm)). apply legalb_spec in Hm. rewrite Hm in H2. cbn [negb orb] in H2.
    apply stuckb_spec in H2. apply (H2 d n); [now left|exact Hn].
Qed.

(** ** Traces of proper games (found by search, replayed here by the model) *)
(** illegal1 *)
Definition tr_illegal1 : list top :=
  [TPlay [(7, 2); (12, 7)] 3 1;
   TPlay [(7, 2); (12, 7)] 3 5;
   TPlay [(0, 3); (11, 16)] 5 4;
   TPlay [(12, 8); (12, 7)] 3 4;
   TPlay [(16, 19); (18, 22)] 1 4;
   TPlay [(7, 6); (12, 8)] 1 2;
   TPlay [(3, 4); (16, 18)] 5 5;
   TPlay [(7, 2); (7, 2)] 2 6;
   TPlay [(6, 1); (7, 2)] 1 5;
   TPlay [(16, 17); (4, 9)] 6 6;
   TPlay [(8, 2); (8, 2)] 6 1;
   TPlay [(23, 17); (23, 17)] 3 1;
   TPlay [((-1), 0); (18, 21)] 6 1;
   TPlay [(2, 1)] 3 1;
   TPlay [(18, 19); (0, 3)] 3 3;
   TPlay [(17, 14); (17, 14)] 2 4;
   TPlay [(5, 2); (5, 2)] 2 4;
   TPlay [(18, 20); (11, 15)] 5 6;
   TPlay [(14, 9); (14, 8)] 4 5;
   TPlay [((-1), 4); (0, 4)] 5 5;
   TPlay [(5, 0); (5, 0)] 5 3;
   TPlay [(5, 0); (8, 3)] 6 1;
   TPlay [((-1), 5); (15, 16)] 3 6;
   TPlay [(9, 3); (2, (-1))] 5 3;
   TPlay [(18, 21); (4, 9)] 3 1;
   TPlay [(2, 1); (2, (-1))] 3 2;
   TPlay [(11, 13); (19, 22)] 5 2;
   TPlay [(1, (-1)); (3, (-1))] 5 3;
   TPlay [(9, 12); (12, 17)] 5 4].
Definition st_illegal1 : bg :=
  mkBg (mkBoard [(-3); (-2); (-5); (-1); 1; 1; 0; 0; 0; 0; 0; 2; 0; 1; 0; 0; 2; 1; 1; 1; 1; 2; 2; 0]
    0 0 4 0) (5, 4) (-1) false 0.
Lemma run_illegal1 pr : run_game pr 5 5 tr_illegal1 = Ok st_illegal1.
Proof. destruct pr; vm_compute; reflexivity. Qed.
Lemma game_illegal1 pr : game pr st_illegal1.
Proof. exact (run_game_game pr _ _ _ _ (run_illegal1 pr)). Qed.
Definition mvs_illegal1 : list actions :=
  [[(2, (-1)); (3, (-1))]].
Lemma moves_illegal1 pr : bg_valid_moves pr st_illegal1 = Ok mvs_illegal1.
Proof. destruct pr; vm_compute; reflexivity. Qed.

(** illegal2 *)
Definition tr_illegal2 : list top :=
  [TPlay [(5, 2); (5, 1)] 2 6;
   TPlay [(16, 18); (11, 17)] 6 1;
   TPlay [(2, 1); (7, 1)] 5 1;
   TPlay [(16, 17); (17, 22)] 5 5;
   TPlay [(7, 2); (12, 7)] 6 1;
   TPlay [(7, 2); (12, 7)] 6 6;
   TPlay [(11, 17); (16, 22)] 6 6;
   TPlay [(11, 17); (11, 17)] 5 5;
   TPlay [(7, 2); (7, 2)] 4 6;
   TPlay [(12, 7); (7, 2)] 3 4;
   TPlay [(18, 21); (17, 21)] 1 5;
   TPlay [(2, 1); (12, 7)] 6 6;
   TPlay [(0, 6); (11, 17)] 3 5;
   TPlay [(6, 12); (12, 18)] 5 3;
   TPlay [((-1), 19); (19, 16)] 5 2;
   TPlay [(17, 19); (17, 22)] 3 6;
   TPlay [(23, 20); (7, 1)] 4 6;
   TPlay [(19, 23); (17, 23)] 1 4;
   TPlay [((-1), 20); (16, 15)] 6 4;
   TPlay [(18, 22); (17, 23)] 1 4;
   TPlay [(5, 4); (15, 11)] 6 6;
   TPlay [(0, 6); (6, 12)] 1 4;
   TPlay [(12, 18); (18, (-1))] 1 2;
   TPlay [(11, 10); (4, 2)] 3 3;
   TPlay [(18, 21); (21, (-1))] 1 4;
   TPlay [(18, 21); (18, 21)] 2 1;
   TPlay [(2, 1); (5, 3)] 5 4].
Definition st_illegal2 : bg :=
  mkBg (mkBoard [0; (-6); (-4); (-1); 0; (-1); 0; 0; 0; 0; (-1); 0; 0; 0; 0; 0; 0; 0; 2; 0; (-2); 4; 4; 3]
    0 0 0 2) (5, 4) 1 false 0.
Lemma run_illegal2 pr : run_game pr 4 3 tr_illegal2 = Ok st_illegal2.
Proof. destruct pr; vm_compute; reflexivity. Qed.
Lemma game_illegal2 pr : game pr st_illegal2.
Proof. exact (run_game_game pr _ _ _ _ (run_illegal2 pr)). Qed.
Definition mvs_illegal2 : list actions :=
  [[(18, 22); (18, 23)];
   [(18, 22); (21, (-1))];
   [(21, (-1)); (18, 23)];
   [(21, (-1)); (21, (-1))]].
Lemma moves_illegal2 pr : bg_valid_moves pr st_illegal2 = Ok mvs_illegal2.
Proof. destruct pr; vm_compute; reflexivity. Qed.

(** incomplete *)
Definition tr_incomplete : list top :=
  [TPlay [(7, 2); (12, 7)] 4 4;
   TPlay [(12, 7); (12, 7)] 4 4;
   TPlay [(11, 15); (18, 22)] 6 6;
   TPlay [(11, 15); (11, 15)] 6 6;
   TPlay [(7, 1); (7, 1)] 3 5;
   TPlay [(7, 1); (12, 6)] 4 3;
   TPlay [(16, 19); (15, 19)] 1 6;
   TPlay [(6, 5); (7, 1)] 4 1;
   TPlay [(18, 19); (15, 19)] 6 2;
   TPlay [(5, 3); (12, 6)] 5 6;
   TPlay [(16, 21); (16, 22)] 6 2;
   TPlay [(23, 21); (23, 17)] 3 5;
   TPlay [((-1), 4); (19, 22)] 2 6;
   TPlay [(3, 1); (21, 15)] 3 1;
   TPlay [((-1), 0); (18, 21)] 5 2;
   TPlay [(15, 13); (17, 12)] 6 2;
   TPlay [(21, 23); (11, 17)] 1 4;
   TPlay [(12, 11); (7, 3)] 3 5;
   TPlay [((-1), 4); (18, 21)] 4 5;
   TPlay [(5, 1); (11, 6)] 5 1;
   TPlay [(18, 19); (17, 22)] 3 4;
   TPlay [(13, 10); (6, 2)] 2 6;
   TPlay [(21, 23); (0, 6)] 3 3;
   TPlay [((-1), 21); (10, 7)] 2 6;
   TPlay [(5, 2); (21, 18)] 5 4;
   TPlay [(6, 10); (10, 15)] 5 5;
   TPlay [(7, 2); (18, 13)] 2 6;
   TPlay [(13, 8); (8, 3)] 4 3;
   TPlay [(19, 22); (19, 23)] 3 5].
Definition st_incomplete : bg :=
  mkBg (mkBoard [2; (-6); (-4); (-2); 2; (-3); 0; 0; 0; 0; 0; 0; 0; 0; 0; 1; 0; 0; 0; 2; 0; 0; 5; 3]
    0 0 0 0) (3, 5) (-1) false 0.
Lemma run_incomplete pr : run_game pr 5 5 tr_incomplete = Ok st_incomplete.
Proof. destruct pr; vm_compute; reflexivity. Qed.
Lemma game_incomplete pr : game pr st_incomplete.
Proof. exact (run_game_game pr _ _ _ _ (run_incomplete pr)). Qed.
Definition mvs_incomplete : list actions :=
  [[(2, (-1))];
   [(5, 2); (3, (-1))]].
Lemma moves_incomplete pr : bg_valid_moves pr st_incomplete = Ok mvs_incomplete.
Proof. destruct pr; vm_compute; reflexivity. Qed.

(** legalstuck *)
Definition tr_legalstuck : list top :=
  [TPlay [(7, 3); (12, 7)] 1 5;
   TPlay [(16, 17); (16, 21)] 2 5;
   TPlay [(12, 10); (7, 2)] 2 1;
   TPlay [(17, 18); (18, 20)] 6 4;
   TPlay [(10, 6); (7, 1)] 4 1;
   TPlay [(16, 17); (18, 22)] 4 5;
   TPlay [(12, 8); (7, 2)] 5 3;
   TPlay [(11, 14); (11, 16)] 3 1;
   TPlay [(8, 7); (5, 2)] 2 2;
   TPlay [(14, 16); (20, 22)] 6 1;
   TPlay [(18, 20); (20, 22)] 5 6;
   TPlay [(7, 2); (23, 17)] 1 2;
   TPlay [((-1), 1); (21, 22)] 6 5;
   TPlay [((-1), 19); (12, 6)] 4 1;
   TPlay [(18, 19); (11, 15)] 4 1;
   TPlay [((-1), 20); (3, 2)] 3 2;
   TPlay [(11, 13); (18, 21)] 5 6;
   TPlay [(17, 12); (23, 17)] 1 5;
   TPlay [(21, 22); (18, 23)] 3 6;
   TPlay [(20, 17); (17, 11)] 6 6;
   TSkip 5 1;
   TPlay [(12, 11); (12, 7)] 2 1;
   TPlay [((-1), 0); (13, 15)] 4 5;
   TPlay [(5, 1); (11, 6)] 4 6;
   TPlay [((-1), 3); (15, 21)] 2 6;
   TPlay [(17, 15); (7, 1)] 3 6;
   TSkip 2 6;
   TPlay [(5, 3); (11, 5)] 3 6;
   TSkip 4 4;
   TPlay [(15, 11); (11, 7)] 6 6;
   TPlay [(5, 1); (5, 1)] 5 5;
   TPlay [((-1), 4); ((-1), 4)] 3 3;
   TPlay [(16, 21); (16, 21)] 5 6;
   TPlay [(6, 1); (7, 1)] 3 5;
   TPlay [(19, 22); (4, 9)] 5 5;
   TPlay [(6, 1); (6, 1)] 4 3].
Definition st_legalstuck : bg :=
  mkBg (mkBoard [3; (-8); (-5); (-1); 1; (-1); 0; 0; 0; 1; 0; 0; 0; 0; 0; 0; 0; 0; 0; 0; 0; 3; 6; 1]
    0 0 0 0) (5, 5) (-1) true 0.
Lemma run_legalstuck pr : run_game pr 4 5 tr_legalstuck = Ok st_legalstuck.
Proof. destruct pr; vm_compute; reflexivity. Qed.
Lemma game_legalstuck pr : game pr st_legalstuck.
Proof. exact (run_game_game pr _ _ _ _ (run_legalstuck pr)). Qed.
Definition mvs_legalstuck : list actions :=
  [[(3, (-1)); (2, (-1))]].
Lemma moves_legalstuck pr : bg_valid_moves pr st_legalstuck = Ok mvs_legalstuck.
Proof. destruct pr; vm_compute; reflexivity. Qed.

(** asym1 *)
Definition tr_asym1 : list top :=
  [TPlay [(7, 6); (7, 2)] 1 2;
   TPlay [(16, 17); (17, 19)] 3 6;
   TPlay [(23, 20); (20, 14)] 5 4;
   TPlay [(0, 4); (16, 21)] 1 5;
   TPlay [(5, 4); (7, 2)] 3 4;
   TPlay [((-1), 3); (3, 6)] 5 5;
   TPlay [((-1), 19); (12, 7)] 4 5;
   TPlay [(14, 9); (19, 14)] 2 6;
   TPlay [((-1), 1); (16, 22)] 2 2;
   TPlay [(4, 2); (9, 7)] 2 4;
   TPlay [(2, 0); (2, 0)] 4 6;
   TPlay [((-1), 3); (11, 17)] 6 6;
   TPlay [(7, 1); (7, 1)] 6 2;
   TPlay [(12, 6); (14, 8)] 2 6;
   TSkip 6 6;
   TPlay [(6, 0); (12, 6)] 1 5;
   TPlay [(6, 0); (8, 2)] 4 6;
   TPlay [((-1), 3)] 3 2;
   TPlay [(12, 10); (23, 20)] 3 1;
   TSkip 5 6;
   TPlay [(20, 15); (12, 6)] 4 3;
   TPlay [((-1), 3); (11, 14)] 6 5;
   TPlay [(15, 10); (10, 4)] 6 1;
   TPlay [(18, 19); (17, 23)] 6 6;
   TPlay [(6, 0); (10, 4)] 3 3;
   TPlay [(5, (-1)); (5, (-1))] 5 2;
   TPlay [(19, 21); (18, 23)] 4 6].
Definition st_asym1 : bg :=
  mkBg (mkBoard [(-5); (-2); (-2); 3; (-2); (-2); 0; 0; 0; 0; 0; 3; 0; 0; 1; 0; 0; 0; 3; 0; 0; 2; 1; 2]
    0 0 2 0) (4, 6) (-1) false 0.
Lemma run_asym1 pr : run_game pr 1 5 tr_asym1 = Ok st_asym1.
Proof. destruct pr; vm_compute; reflexivity. Qed.
Lemma game_asym1 pr : game pr st_asym1.
Proof. exact (run_game_game pr _ _ _ _ (run_asym1 pr)). Qed.
Definition mvs_asym1 : list actions :=
  [[(4, 0); (2, (-1))];
   [(4, 0); (5, (-1))];
   [(5, 1); (2, (-1))];
   [(5, 1); (5, (-1))];
   [(5, (-1)); (2, (-1))]].
Lemma moves_asym1 pr : bg_valid_moves pr st_asym1 = Ok mvs_asym1.
Proof. destruct pr; vm_compute; reflexivity. Qed.

(** asym2 *)
Definition tr_asym2 : list top :=
  [TPlay [(7, 4); (12, 7)] 6 6;
   TPlay [(11, 17); (16, 22)] 6 3;
   TPlay [(16, 22); (16, 22)] 6 2;
   TPlay [(7, 5); (12, 6)] 4 6;
   TPlay [(11, 15); (11, 17)] 1 5;
   TPlay [(7, 6); (7, 2)] 6 6;
   TPlay [(11, 17); (11, 17)] 6 1;
   TPlay [(15, 21)] 3 1;
   TPlay [(4, 3); (6, 3)] 3 6;
   TPlay [(18, 21); (0, 6)] 6 4;
   TPlay [((-1), 20); (12, 6)] 5 3;
   TPlay [((-1), 2); (17, 22)] 5 4;
   TPlay [((-1), 20); (6, 1)] 6 5;
   TPlay [(2, 7); (7, 13)] 6 1;
   TPlay [(12, 11); (20, 14)] 4 2;
   TPlay [(13, 15); (17, 21)] 2 3;
   TPlay [(5, 3); (11, 8)] 5 5;
   TPlay [(15, 20); (17, 22)] 6 2;
   TPlay [(17, 22)] 5 2;
   TPlay [((-1), 19); (8, 6)] 6 1;
   TPlay [(20, 21); (0, 6)] 5 2;
   TPlay [((-1), 19); (14, 12)] 3 5;
   TPlay [(18, 21); (6, 11)] 5 5;
   TPlay [(12, 7); (19, 14)] 1 5;
   TPlay [(7, 2); (12, 7)] 2 5;
   TPlay [(18, 20); (11, 16)] 4 1;
   TPlay [(2, 1); (23, 19)] 5 6].
Definition st_asym2 : bg :=
  mkBg (mkBoard [0; (-2); 0; (-3); 0; (-5); 0; (-1); 0; 0; 0; 0; 0; 0; (-1); 0; 1; 0; 2; (-2); 1; 5; 6; (-1)]
    0 0 0 0) (5, 6) 1 false 0.
Lemma run_asym2 pr : run_game pr 3 5 tr_asym2 = Ok st_asym2.
Proof. destruct pr; vm_compute; reflexivity. Qed.
Lemma game_asym2 pr : game pr st_asym2.
Proof. exact (run_game_game pr _ _ _ _ (run_asym2 pr)). Qed.
Definition mvs_asym2 : list actions :=
  [[(16, 21); (18, (-1))];
   [(18, 23); (16, 22)];
   [(16, 22); (20, (-1))]].
Lemma moves_asym2 pr : bg_valid_moves pr st_asym2 = Ok mvs_asym2.
Proof. destruct pr; vm_compute; reflexivity. Qed.

(** onestep *)
Definition tr_onestep : list top :=
  [TPlay [(7, 6); (6, 1)] 4 4;
   TPlay [(16, 20); (16, 20)] 2 6;
   TPlay [(11, 15); (15, 19)] 6 6;
   TPlay [(23, 17); (23, 17)] 2 5;
   TPlay [(12, 6); (12, 6)] 6 2].
Definition st_onestep : bg :=
  mkBg (mkBoard [2; (-1); 0; 0; 0; (-5); (-2); (-2); 0; 0; 0; 4; (-3); 0; 0; 0; 1; (-2); 5; 1; 2; 0; 0; 0]
    0 0 0 0) (6, 2) 1 false 0.
Lemma run_onestep pr : run_game pr 1 5 tr_onestep = Ok st_onestep.
Proof. destruct pr; vm_compute; reflexivity. Qed.
Lemma game_onestep pr : game pr st_onestep.
Proof. exact (run_game_game pr _ _ _ _ (run_onestep pr)). Qed.
Definition mvs_onestep : list actions :=
  [[(0, 2); (2, 8)];
   [(0, 2); (16, 22)];
   [(11, 13); (13, 19)];
   [(11, 13); (16, 22)];
   [(16, 18)];
   [(18, 20); (16, 22)];
   [(19, 21); (16, 22)];
   [(20, 22); (16, 22)]].
Lemma moves_onestep pr : bg_valid_moves pr st_onestep = Ok mvs_onestep.
Proof. destruct pr; vm_compute; reflexivity. Qed.

(** lowdie *)
Definition tr_lowdie : list top :=
  [TPlay [(7, 6); (5, 2)] 4 3;
   TPlay [(16, 19); (11, 15)] 3 4;
   TPlay [(12, 9); (5, 1)] 6 6;
   TPlay [(11, 17); (16, 22)] 6 5;
   TPlay [(11, 17); (15, 21)] 6 2;
   TPlay [(5, 3); (7, 1)] 6 5;
   TPlay [(16, 21); (11, 17)] 6 1;
   TPlay [(5, 4); (12, 6)] 5 5;
   TPlay [(11, 16); (17, 22)] 6 2;
   TPlay [(17, 22); (17, 22)] 2 1;
   TPlay [(4, 3); (7, 5)] 5 6].
Definition st_lowdie : bg :=
  mkBg (mkBoard [2; (-2); (-1); (-2); 0; (-2); (-2); 0; 0; (-1); 0; 0; (-3); 0; 0; 0; 1; 0; 5; 1; 0; 2; 4; (-2)]
    0 0 0 0) (5, 6) 1 false 0.
Lemma run_lowdie pr : run_game pr 1 3 tr_lowdie = Ok st_lowdie.
Proof. destruct pr; vm_compute; reflexivity. Qed.
Lemma game_lowdie pr : game pr st_lowdie.
Proof. exact (run_game_game pr _ _ _ _ (run_lowdie pr)). Qed.
Definition mvs_lowdie : list actions :=
  [[(16, 21)];
   [(16, 22)]].
Lemma moves_lowdie pr : bg_valid_moves pr st_lowdie = Ok mvs_lowdie.
Proof. destruct pr; vm_compute; reflexivity. Qed.

(** stuck *)
Definition tr_stuck : list top :=
  [TPlay [(23, 17); (17, 12)] 5 6;
   TPlay [(18, 23); (16, 22)] 6 6].
Definition st_stuck : bg :=
  mkBg (mkBoard [2; 0; 0; 0; 0; (-5); 0; (-3); 0; 0; 0; 5; (-6); 0; 0; 0; 2; 0; 4; 0; 0; 0; 1; 1]
    1 0 0 0) (6, 6) (-1) false 0.
Lemma run_stuck pr : run_game pr 6 5 tr_stuck = Ok st_stuck.
Proof. destruct pr; vm_compute; reflexivity. Qed.
Lemma game_stuck pr : game pr st_stuck.
Proof. exact (run_game_game pr _ _ _ _ (run_stuck pr)). Qed.
Definition mvs_stuck : list actions :=
  [].
Lemma moves_stuck pr : bg_valid_moves pr st_stuck = Ok mvs_stuck.
Proof. destruct pr; vm_compute; reflexivity. Qed.

