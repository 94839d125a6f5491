(** * TreeApi: proofs about move trees (C78). *)
From Coq Require Import Permutation Sorted.
From Verif Require Import Base BaseFacts BgModel BgSpec BgStep BgGen BgTurn BgReach BgApi BgWitness JsonModel JsonSpec ShowModel ShowApi TreeModel TreeSpec.
Local Open Scope Z_scope.

Lemma C78_sequences_lemma : forall n, branches n (extract_sequences_node n)
  /\ (forall qs, branches n qs -> qs = extract_sequences_node n) /\ (forall q, In q (extract_sequences_node n) <-> branch n q)
  /\ forall l, extract_sequences_list l = concat (map extract_sequences_node l).
Proof.
  intros n. split; [|split; [|split]].
  - induction n as [v ch IH] using anode_ind'. unfold extract_sequences_node. rewrite extract_helper_node. destruct ch as [|c ch]; [constructor|].
    assert (E : extract_list_from ([] ++ [v]) (c :: ch) = map (cons v) (concat (map extract_sequences_node (c :: ch)))).
    { unfold extract_list_from. rewrite flat_map_concat_map, concat_map, map_map. f_equal. apply map_ext. intros a. rewrite extract_helper_cur. reflexivity. }
    rewrite E. constructor; [discriminate|]. clear E. induction IH as [|x l Hx _ IHl]; constructor; assumption.
  - induction n as [v ch IH] using anode_ind'. intros qs H. unfold extract_sequences_node. rewrite extract_helper_node. inversion H as [|v' ch' qs' Hne HF]; subst; [reflexivity|].
    destruct ch as [|c ch]; [contradiction|].
    assert (E : qs' = map extract_sequences_node (c :: ch)).
    { clear - IH HF. induction HF as [|x y l l' Hxy _ IHf]; [reflexivity|]. inversion IH; subst. cbn [map]. f_equal; auto. }
    subst qs'. unfold extract_list_from. rewrite flat_map_concat_map, concat_map, map_map. f_equal. apply map_ext. intros a. rewrite (extract_helper_cur a ([] ++ [v])). reflexivity.
  - induction n as [v ch IH] using anode_ind'. intros q. rewrite In_extract_node. rewrite Forall_forall in IH. split.
    + intros [[-> ->]|(_ & rest & -> & Hr)]; [constructor|]. unfold extract_sequences_list in Hr. apply in_flat_map in Hr. destruct Hr as (c & Hc & Hr).
      econstructor; [exact Hc|]. apply IH; assumption.
    + intros H. inversion H as [|v' ch' c q' Hc Hb]; subst; [now left|]. right. split; [intros ->; destruct Hc|]. exists q'. split; [reflexivity|].
      unfold extract_sequences_list. apply in_flat_map. exists c. split; [exact Hc|]. apply IH; assumption.
  - intros l. unfold extract_sequences_list. apply flat_map_concat_map.
Qed.

(** ** removing duplicates *)
Lemma dedup_firsts pr b p : forall seqs seen out, dedup_states pr b p seqs seen = Ok out ->
  (forall m, In m seqs -> is_ok (get_next_state pr b m p)) /\
  exists ks, StronglySorted lt ks /\ Forall2 (fun k x => nth_error seqs k = Some x) ks out
    /\ forall k x, nth_error seqs k = Some x -> (In k ks <-> (forall b', In b' seen -> get_next_state pr b x p <> Ok b') /\ forall j y, (j < k)%nat -> nth_error seqs j = Some y -> get_next_state pr b y p <> get_next_state pr b x p).
Proof.
  induction seqs as [|m seqs IH]; intros seen out E.
  - injection E as <-. split; [intros m []|]. exists []. split; [constructor|]. split; [constructor|]. intros [|k] x Hk; discriminate Hk.
  - cbn [dedup_states] in E. rewrite mfold_singletons in E. destruct (get_next_state pr b m p) as [b0|] eqn:Eb; [|discriminate E]. cbn [bind] in E.
    destruct (existsb (board_eqb b0) seen) eqn:Es.
    + destruct (IH _ _ E) as (Hok & ks & HS & HF & HK). split; [intros m' [<-|H]; [exists b0; exact Eb|auto]|].
      apply existsb_exists in Es. destruct Es as (b1 & Hb1 & Es). apply board_eqb_eq in Es. subst b1.
      exists (map S ks). split; [clear - HS; induction HS as [|k ks _ IHs HFa]; cbn [map]; constructor; [assumption|]; rewrite Forall_map; eapply Forall_impl; [|exact HFa]; cbn; lia|].
      split; [clear - HF; induction HF; cbn [map]; constructor; assumption|].
      intros [|k] x Hk.
      * injection Hk as <-. split; [intros H; apply in_map_iff in H; destruct H as (? & H & _); discriminate H|]. intros [H _]. exfalso. exact (H b0 Hb1 Eb).
      * cbn [nth_error] in Hk. rewrite in_map_iff. transitivity (In k ks); [split; [intros (k' & [= ->] & H); exact H|eauto]|]. rewrite (HK k x Hk). split.
        -- intros [H1 H2]. split; [exact H1|]. intros [|j] y Hj Hy; [injection Hy as <-; rewrite Eb; intros H; exact (H1 b0 Hb1 (eq_sym H))|]. apply (H2 j y); [lia|exact Hy].
        -- intros [H1 H2]. split; [exact H1|]. intros j y Hj Hy. apply (H2 (S j) y); [lia|exact Hy].
    + destruct (dedup_states pr b p seqs (b0 :: seen)) as [out'|] eqn:Eo; [|discriminate E]. cbn [bind] in E. injection E as <-.
      destruct (IH _ _ Eo) as (Hok & ks & HS & HF & HK). split; [intros m' [<-|H]; [exists b0; exact Eb|auto]|].
      exists (O :: map S ks). split.
      { constructor; [clear - HS; induction HS as [|k ks _ IHs HFa]; cbn [map]; constructor; [assumption|]; rewrite Forall_map; eapply Forall_impl; [|exact HFa]; cbn; lia|].
        apply Forall_forall. intros k H. apply in_map_iff in H. destruct H as (k' & <- & _). lia. }
      split; [constructor; [reflexivity|]; clear - HF; induction HF; cbn [map]; constructor; assumption|].
      intros [|k] x Hk.
      * injection Hk as <-. split; [intros _|intros _; now left]. split; [|intros j y Hj; lia]. intros b' Hb' H. rewrite Eb in H. injection H as <-.
        assert (existsb (board_eqb b0) seen = true); [|congruence]. apply existsb_exists. exists b0. split; [exact Hb'|now apply board_eqb_eq].
      * cbn [nth_error] in Hk. transitivity (In k ks); [split; [intros [H|H]; [discriminate H|]; apply in_map_iff in H; destruct H as (k' & [= ->] & H); exact H|intros H; right; now apply in_map]|].
        rewrite (HK k x Hk). split.
        -- intros [H1 H2]. split; [intros b' Hb'; apply H1; now right|]. intros [|j] y Hj Hy; [injection Hy as <-; rewrite Eb; intros H; exact (H1 b0 (or_introl eq_refl) (eq_sym H))|]. apply (H2 j y); [lia|exact Hy].
        -- intros [H1 H2]. split; [intros b' [<-|Hb']; [|auto]; intros H; apply (H2 O m); [lia|reflexivity|congruence]|]. intros j y Hj Hy. apply (H2 (S j) y); [lia|exact Hy].
Qed.
Lemma C78_duplicates_lemma : forall pr b seqs p,
  ((exists out, remove_duplicate_states pr b seqs p = Ok out) <-> forall m, In m seqs -> exists b', get_next_state pr b m p = Ok b')
  /\ forall out, remove_duplicate_states pr b seqs p = Ok out -> firsts (fun m => get_next_state pr b m p) seqs out.
Proof.
  intros pr b seqs p. unfold remove_duplicate_states. split; [split|].
  - intros (out & E). apply (dedup_firsts _ _ _ _ _ _ E).
  - intros H. destruct (dedup_states_spec pr b p seqs [] H) as (out & E & _). eauto.
  - intros out E. destruct (dedup_firsts _ _ _ _ _ _ E) as (_ & ks & HS & HF & HK). exists ks. split; [exact HS|]. split; [exact HF|].
    intros k x Hk. rewrite (HK k x Hk). split; [intros [_ H]; exact H|intros H; split; [intros b' []|exact H]].
Qed.

(** ** the public generators *)
Lemma trees_moves pr s moves b : WF b -> Forall die moves -> exists ts, action_trees pr (S (length moves)) moves b (sign s) = Ok ts /\
  (forall q, (exists t, In t ts /\ branch t q) -> exists ms, ms <> [] /\ q = map act_of ms /\ BgSpec.play (loose s) (stuck s) s moves (view b) ms)
  /\ (clear_home (view b) s -> forall q, (exists t, In t ts /\ branch t q) <-> exists ms, ms <> [] /\ q = map act_of ms /\ BgSpec.turn s moves (view b) ms)
  /\ (forall ms, ms <> [] -> BgSpec.play (legal s) (fun _ _ => True) s moves (view b) ms -> exists ms' t, In t ts /\ branch t (map act_of (ms ++ ms'))).
Proof.
  intros HW HD. destruct (action_trees_spec pr s (S (length moves)) moves b HW HD (Nat.lt_succ_diag_r _)) as (ts & E & _ & HS). exists ts. split; [exact E|].
  assert (HB : forall q, (exists t, In t ts /\ branch t q) <-> exists ms, ms <> [] /\ q = map act_of ms /\ gplay s moves (view b) ms).
  { intros q. rewrite <- HS. unfold extract_sequences_list. rewrite in_flat_map. split; intros (t & Ht & Hq); exists t; (split; [exact Ht|]); apply (C78_sequences_lemma t); exact Hq. }
  split; [|split].
  - intros q Hq. apply HB in Hq. destruct Hq as (ms & Hne & -> & Hp). exists ms. split; [exact Hne|]. split; [reflexivity|]. apply gplay_sound; [now apply WF_nn|exact HD|exact Hp].
  - intros HC q. rewrite HB. split; intros (ms & Hne & Eq & Hp); exists ms; (split; [exact Hne|]; split; [exact Eq|]); apply (gplay_turn s moves (view b) ms (WF_nn _ HW) HC HD); exact Hp.
  - intros ms Hne Hp. destruct (legal_play_extends s ms moves b HW HD Hp) as (ms' & Hg). exists ms'. apply HB. exists (ms ++ ms'). split; [destruct ms; [contradiction|discriminate]|]. auto.
Qed.
Lemma C78_normal_lemma : forall pr moves b s, WF b -> Forall die moves -> bar (view b) s = 0 ->
  exists ts, get_normal_moves pr moves b (sign s) = Ok ts
  /\ (forall q, (exists t, In t ts /\ branch t q) -> exists ms, ms <> [] /\ q = map act_of ms /\ BgSpec.play (loose s) (stuck s) s moves (view b) ms)
  /\ (clear_home (view b) s -> forall q, (exists t, In t ts /\ branch t q) <-> exists ms, ms <> [] /\ q = map act_of ms /\ BgSpec.turn s moves (view b) ms)
  /\ (forall ms, ms <> [] -> BgSpec.play (legal s) (fun _ _ => True) s moves (view b) ms -> exists ms' t, In t ts /\ branch t (map act_of (ms ++ ms'))).
Proof.
  intros pr moves b s HW HD HB. destruct (trees_moves pr s moves b HW HD) as (ts & E & H). exists ts. split; [|exact H].
  rewrite <- E. unfold get_normal_moves. cbn [action_trees]. rewrite get_pieces_hit_bar, HB. reflexivity.
Qed.
Lemma C78_entry_lemma : forall pr moves b s, WF b -> Forall die moves -> 0 < bar (view b) s ->
  exists ts, get_entry_moves pr moves b (sign s) = Ok ts
  /\ (forall q, (exists t, In t ts /\ branch t q) -> exists ms, ms <> [] /\ q = map act_of ms /\ BgSpec.play (loose s) (stuck s) s moves (view b) ms)
  /\ (clear_home (view b) s -> forall q, (exists t, In t ts /\ branch t q) <-> exists ms, ms <> [] /\ q = map act_of ms /\ BgSpec.turn s moves (view b) ms)
  /\ (forall ms, ms <> [] -> BgSpec.play (legal s) (fun _ _ => True) s moves (view b) ms -> exists ms' t, In t ts /\ branch t (map act_of (ms ++ ms'))).
Proof.
  intros pr moves b s HW HD HB. destruct (trees_moves pr s moves b HW HD) as (ts & E & H). exists ts. split; [|exact H].
  rewrite <- E. unfold get_entry_moves. cbn [action_trees]. rewrite get_pieces_hit_bar. destruct (Z.ltb_spec 0 (bar (view b) s)); [reflexivity|lia].
Qed.

(** without a checker on the bar *)
Lemma entry_acts pr moves b s : WF b -> Forall die moves -> exists l, entry_actions pr moves b (sign s) = Ok l
  /\ forall pa, In pa l <-> In (fst pa) moves /\ snd pa = (-1, entry s (fst pa)) /\ ~ blocked (view b) s (entry s (fst pa)).
Proof.
  intros HW HD. rewrite Forall_forall in HD. pose proof (WF_len b HW) as Hl.
  unfold entry_actions. rewrite dice_id by (now apply Forall_forall).
  rewrite (mflat_ok _ (fun m => if -2 <? sign s * at_pt (pts b) (entry s m) then [(m, (-1, entry s m))] else [])).
  - cbn [bind]. eexists. split; [reflexivity|]. intros [m a]. rewrite In_dedup, In_sort, in_flat_map. cbn [fst snd]. split.
    + intros (d & Hd & Hin). destruct (Z.ltb_spec (-2) (sign s * at_pt (pts b) (entry s d))); [|easy]. destruct Hin as [[= <- <-]|[]].
      split; [exact Hd|]. split; [reflexivity|]. apply not_blocked_at; [apply entry_on_board; auto|lia].
    + intros (Hm & -> & Hb). exists m. split; [exact Hm|]. apply not_blocked_at in Hb; [|apply entry_on_board; auto].
      destruct (Z.ltb_spec (-2) (sign s * at_pt (pts b) (entry s m))); [now left|lia].
  - intros m Hm. specialize (HD m Hm). unfold die in HD. unfold entry_one.
    destruct s; cbn [sign entry Z.eqb Pos.eqb]; rewrite i8_ok by lia; cbn [bind]; rewrite idx_at by lia; cbn [bind]; f_equal.
    + replace (-2 <? -1 * at_pt (pts b) (24 - m)) with (at_pt (pts b) (24 - m) <? 2) by lia. reflexivity.
    + replace (1 * at_pt (pts b) (m - 1)) with (at_pt (pts b) (m - 1)) by lia. reflexivity.
Qed.
Lemma enter_none b s d : WF b -> die d -> bar (view b) s = 0 -> next_action Debug (sign s) b (-1, entry s d) = Panic POverflow.
Proof.
  intros HW Hd HB. pose proof (WF_len b HW) as Hl. pose proof (entry_on_board s d Hd) as Ho. pose proof (WF_at b _ HW Ho) as Ha. unfold on_board in Ho. pose proof (WF_hits b HW) as Hh.
  unfold next_action. destruct (Z.eqb_spec (entry s d) (-1)) as [H|_]; [lia|]. cbn [Z.eqb Pos.eqb]. rewrite idx_at by lia. cbn [bind].
  destruct s; cbn [sign bar view] in *; cbn [Z.opp]; rewrite i8_ok by lia; cbn [bind]; rewrite HB in *; cbn [Z.eqb Pos.eqb].
  - destruct (_ =? 1).
    + rewrite upd_ok by lia. cbn [bind]. rewrite u8_ok by lia. reflexivity.
    + rewrite i8_ok by lia. cbn [bind]. rewrite upd_ok by lia. reflexivity.
  - destruct (_ =? -1).
    + rewrite upd_ok by lia. cbn [bind]. rewrite u8_ok by lia. reflexivity.
    + rewrite i8_ok by lia. cbn [bind]. rewrite upd_ok by lia. reflexivity.
Qed.
Lemma C78_entry_no_bar_lemma : forall moves b s, WF b -> Forall die moves -> bar (view b) s = 0 ->
  ((exists d, In d moves /\ ~ blocked (view b) s (entry s d)) -> get_entry_moves Debug moves b (sign s) = Panic POverflow)
  /\ ((forall d, In d moves -> blocked (view b) s (entry s d)) -> forall pr, get_entry_moves pr moves b (sign s) = Ok []).
Proof.
  intros moves b s HW HD HB. split.
  - intros (d & Hd & Hn). unfold get_entry_moves. destruct (entry_acts Debug moves b s HW HD) as (l & -> & HL). cbn [bind].
    destruct l as [|[d0 a] l]; [exfalso; apply (proj2 (HL (d, (-1, entry s d)))); auto|].
    destruct (proj1 (HL (d0, a)) (or_introl eq_refl)) as (H1 & H2 & _). cbn [fst snd] in *. subst a. unfold grow. cbn [mmap]. cbn [get_next_state mfold].
    rewrite (enter_none b s d0 HW (proj1 (Forall_forall _ _) HD d0 H1) HB). reflexivity.
  - intros Hall pr. unfold get_entry_moves. destruct (entry_acts pr moves b s HW HD) as (l & -> & HL). cbn [bind].
    destruct l as [|[d0 a] l]; [reflexivity|]. exfalso. destruct (proj1 (HL (d0, a)) (or_introl eq_refl)) as (H1 & _ & H3). apply H3, Hall, H1.
Qed.

(** the first step of [get_normal_moves] ignores the bar *)
Definition bar_board : board := mkBoard [2; 0; 0; 0; 0; -5; 0; -3; 0; 0; 0; 5; -5; 0; 0; 0; 3; 0; 5; 0; 0; 0; 0; -1] 1 0 0 0.
Lemma C78_normal_bar_refuted_lemma : forall pr, exists b s moves ts i j ch, WF b /\ Forall die moves /\ 0 < bar (view b) s /\ get_normal_moves pr moves b (sign s) = Ok ts
  /\ In (ANode (i, j) ch) ts /\ forall d, ~ legal s d (view b) (Move i j).
Proof.
  intros pr. exists bar_board, P1, [3]. do 4 eexists. split; [apply wfb_spec; vm_compute; reflexivity|]. split; [constructor; [unfold die; lia|constructor]|]. split; [cbn; lia|].
  split; [destruct pr; vm_compute; reflexivity|]. split; [left; reflexivity|]. intros d H. inversion H as [|i Hb| |]; subst. cbn in Hb. lia.
Qed.
Lemma C78_collectible_lemma : forall b s, WF b -> (is_collectible b (sign s) = true <-> all_home (view b) s).
Proof. intros b s _. apply collectible_home. Qed.
Lemma C78_fields_lemma : forall b p sp, bgboard (init_with_fields b p sp) = b /\ player (init_with_fields b p sp) = p /\ second (init_with_fields b p sp) = sp
  /\ bgid (init_with_fields b p sp) = 0 /\ forall pr, bg_valid_moves pr (init_with_fields b p sp) = Panic PAssert.
Proof. intros b p sp. repeat (split; [reflexivity|]). reflexivity. Qed.

(** ** the printed tree *)
Definition children_text (p : text) : list anode -> text :=
  fix go l := match l with [] => [] | c :: l' => format_tree c p (match l' with [] => true | _ => false end) ++ go l' end.
Lemma format_node v ch p b : format_tree (ANode v ch) p b = (p ++ node_prefix b ++ show_pair v ++ [NL]) ++ children_text (p ++ child_prefix b) ch.
Proof. reflexivity. Qed.
Lemma pair_inj v v' r r' : -128 <= fst v <= 127 -> -128 <= snd v <= 127 -> -128 <= fst v' <= 127 -> -128 <= snd v' <= 127 ->
  show_pair v ++ [NL] ++ r = show_pair v' ++ [NL] ++ r' -> v = v' /\ r = r'.
Proof.
  intros H1 H2 H3 H4 E. unfold show_pair in E. rewrite <- !app_assoc in E. cbn [txt list_ascii_of_string app] in E. apply cons_eq in E. destruct E as [_ E].
  apply (split_at ","%char) in E; [|apply int_free; unfold numchar; cbn; lia..]. destruct E as [E1 E]. apply cons_eq in E; destruct E as [_ E].
  apply (split_at ")"%char) in E; [|apply int_free; unfold numchar; cbn; lia..]. destruct E as [E2 E]. apply cons_eq in E; destruct E as [_ E].
  apply int_inj in E1; [|unfold is_i64; lia..]. apply int_inj in E2; [|unfold is_i64; lia..]. destruct v, v'. cbn [fst snd] in *. subst. auto.
Qed.
Definition off_prefix (p r : text) : Prop := forall t, r <> p ++ t.
Lemma marks b b' t t' : node_prefix b ++ t <> child_prefix b' ++ t'.
Proof. destruct b, b'; cbn; discriminate. Qed.
Lemma format_inj : forall n p b r n' b' r', typed_tree n -> typed_tree n' -> off_prefix (p ++ child_prefix b) r -> off_prefix (p ++ child_prefix b') r' ->
  format_tree n p b ++ r = format_tree n' p b' ++ r' -> n = n' /\ b = b' /\ r = r'.
Proof.
  intros n. induction n as [v ch IH] using anode_ind'. intros p b r [v' ch'] b' r' HT HT' Hr Hr' E. rewrite !format_node in E. rewrite <- !app_assoc in E. apply app_inv_head in E.
  assert (b = b' /\ show_pair v ++ [NL] ++ children_text (p ++ child_prefix b) ch ++ r = show_pair v' ++ [NL] ++ children_text (p ++ child_prefix b') ch' ++ r') as [-> E'].
  { destruct b, b'; cbn [node_prefix txt list_ascii_of_string app] in E; try discriminate E; (split; [reflexivity|]); do 10 (apply cons_eq in E; destruct E as [_ E]); exact E. }
  clear E. inversion HT as [? ? H1 H2 HF]; subst. inversion HT' as [? ? H3 H4 HF']; subst. apply pair_inj in E'; [|assumption..]. destruct E' as [-> E].
  assert (HG : ch = ch' /\ r = r'); [|destruct HG as [-> ->]; auto].
  clear v' HT HT' H1 H2 H3 H4. set (q := p ++ child_prefix b') in *. clearbody q. clear p b'. revert ch' HF' E.
  assert (HS : forall n b t, exists t', format_tree n q b ++ t = q ++ node_prefix b ++ t') by (intros [v0 ch0] b0 t; rewrite format_node, <- !app_assoc; eauto).
  induction IH as [|c ch Hc _ IHch]; intros [|c' ch'] HF' E.
  - auto.
  - exfalso. cbn [children_text] in E. rewrite <- app_assoc in E. destruct (HS c' (match ch' with [] => true | _ => false end) (children_text q ch' ++ r')) as (t' & Et). rewrite Et in E. exact (Hr _ E).
  - exfalso. cbn [children_text] in E. rewrite <- app_assoc in E. destruct (HS c (match ch with [] => true | _ => false end) (children_text q ch ++ r)) as (t' & Et). rewrite Et in E. exact (Hr' _ (eq_sym E)).
  - cbn [children_text] in E. rewrite <- !app_assoc in E. inversion HF as [|? ? Tc Tch]; subst. inversion HF' as [|? ? Tc' Tch']; subst.
    assert (HO : forall l b0 r0, off_prefix q r0 -> off_prefix (q ++ child_prefix b0) (children_text q l ++ r0)).
    { intros [|x l] b0 r0 H0 t Ht; [cbn in Ht; rewrite <- app_assoc in Ht; exact (H0 _ Ht)|]. cbn [children_text] in Ht. rewrite <- app_assoc in Ht.
      destruct (HS x (match l with [] => true | _ => false end) (children_text q l ++ r0)) as (t' & Et). rewrite Et, <- app_assoc in Ht. apply app_inv_head in Ht. exact (marks _ _ _ _ Ht). }
    destruct (Hc q _ _ c' _ _ Tc Tc' (HO ch _ r Hr) (HO ch' _ r' Hr') E) as (-> & _ & E'). destruct (IHch Tch ch' Tch' E') as [-> ->]. auto.
Qed.
Lemma C78_display_lemma : forall n n', typed_tree n -> typed_tree n' -> display_tree n = display_tree n' -> n = n'.
Proof.
  intros n n' H H' E. unfold display_tree in E. assert (HO : off_prefix ([] ++ child_prefix true) []) by (intros t Ht; discriminate Ht).
  refine (proj1 (format_inj n [] true [] n' true [] H H' HO HO _)). rewrite !app_nil_r. exact E.
Qed.
Lemma C78_lines_lemma : forall n, display_tree n = concat (map row_line (rows [] true n)).
Proof.
  assert (H : forall n up b, format_tree n (concat (map (fun b : bool => if b then txt "    " else txt "│   ") up)) b = concat (map row_line (rows up b n))).
  { induction n as [v ch IH] using anode_ind'. intros up b. cbn [format_tree rows map concat]. f_equal.
    assert (E : concat (map (fun b : bool => if b then txt "    " else txt "│   ") up) ++ child_prefix b = concat (map (fun b : bool => if b then txt "    " else txt "│   ") (up ++ [b])))
      by (rewrite map_app, concat_app; cbn [map concat]; rewrite app_nil_r; destruct b; reflexivity).
    rewrite E. clear E. induction IH as [|c l Hc _ IHl]; [reflexivity|]. rewrite (map_app row_line), concat_app. exact (f_equal2 (@app _) (Hc _ _) IHl). }
  intros n. exact (H n [] true).
Qed.
