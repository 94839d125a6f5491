(** * McProof: the tree search builds well-formed trees, counts visits, never panics on
    live games. *)
From Verif Require Import Base BaseFacts F32 F32Facts GameModel McModel McSpec.
From Coq Require Import Arith.
Require Import ZifyBool ZifyNat.

(** ** Lists *)
Lemma nth_error_set_same (A : Type) (l : list A) : forall i v, (i < length l)%nat -> nth_error (set_nth l i v) i = Some v.
Proof. induction l as [|x l IH]; intros [|i] v H; cbn in *; try lia; auto. apply IH. lia. Qed.
Lemma nth_error_set_other (A : Type) (l : list A) : forall i j v, i <> j -> nth_error (set_nth l i v) j = nth_error l j.
Proof. induction l as [|x l IH]; intros [|i] [|j] v H; cbn; auto; try lia. Qed.
Lemma length_set_nth (A : Type) (l : list A) : forall i v, length (set_nth l i v) = length l.
Proof. induction l as [|x l IH]; intros [|i] v; cbn; auto. Qed.
Lemma nth_error_lt (A : Type) (l : list A) i x : nth_error l i = Some x -> (i < length l)%nat.
Proof. intros H. apply nth_error_Some. congruence. Qed.
Lemma nth_error_ex (A : Type) (l : list A) i : (i < length l)%nat -> exists x, nth_error l i = Some x.
Proof. intros H. destruct (nth_error l i) eqn:E; eauto. apply nth_error_None in E. lia. Qed.
Lemma mmap_ok_in (A B : Type) (f : A -> res B) l : forall ys, mmap f l = Ok ys -> Forall2 (fun x y => f x = Ok y) l ys.
Proof.
  induction l as [|x l IH]; intros ys H; cbn in H.
  - injection H as <-. constructor.
  - destruct (f x) as [y|] eqn:E; cbn in H; [|discriminate]. destruct (mmap f l) as [ys'|] eqn:E'; cbn in H; [|discriminate].
    injection H as <-. constructor; auto.
Qed.
Lemma mmap_all_ok (A B : Type) (f : A -> res B) l : (forall x, In x l -> exists y, f x = Ok y) -> exists ys, mmap f l = Ok ys.
Proof.
  induction l as [|x l IH]; intros H; cbn; [eauto|].
  destruct (H x (or_introl eq_refl)) as [y Ey]. rewrite Ey. cbn.
  destruct IH as [ys Eys]; [intros z Hz; apply H; right; exact Hz|]. rewrite Eys. cbn. eauto.
Qed.
Lemma forall2_in_l (A B : Type) (P : A -> B -> Prop) l l' x : Forall2 P l l' -> In x l -> exists y, In y l' /\ P x y.
Proof.
  induction 1 as [|a b l l' Hab Hl IH]; intros H; [destruct H|].
  destruct H as [<-|H]; [exists b; cbn; auto|]. destruct (IH H) as (y & Hy & HP). exists y; cbn; auto.
Qed.
Lemma forall2_in_r (A B : Type) (P : A -> B -> Prop) l l' y : Forall2 P l l' -> In y l' -> exists x, In x l /\ P x y.
Proof.
  induction 1 as [|a b l l' Hab Hl IH]; intros H; [destruct H|].
  destruct H as [<-|H]; [exists a; cbn; auto|]. destruct (IH H) as (x & Hx & HP). exists x; cbn; auto.
Qed.

Lemma set_nth_app (A : Type) (l : list A) x y : forall i, (i < length l)%nat -> set_nth (l ++ [x]) i y = set_nth l i y ++ [x].
Proof. induction l as [|z l IH]; intros [|i] H; cbn in *; try lia; auto. f_equal. apply IH. lia. Qed.

Section P.
  Variable G : Game.
  Implicit Types (st : store G) (n : node G).

  (** ** Shape: everything but the counters *)
  Definition same_shape n n' : Prop :=
    n_state n = n_state n' /\ n_idx n = n_idx n' /\ n_parent n = n_parent n' /\ n_children n = n_children n'
    /\ n_policy n = n_policy n' /\ n_action n = n_action n' /\ n_exp n = n_exp n'.
  Definition shape_eq st st' : Prop := Forall2 same_shape st st'.
  Lemma same_shape_refl n : same_shape n n.
  Proof. repeat split. Qed.
  Lemma same_shape_sym n n' : same_shape n n' -> same_shape n' n.
  Proof. unfold same_shape. intuition. Qed.
  Lemma same_shape_trans a b c : same_shape a b -> same_shape b c -> same_shape a c.
  Proof. unfold same_shape. intuition congruence. Qed.
  Lemma shape_eq_refl st : shape_eq st st.
  Proof. induction st as [|x l IH]; constructor; [apply same_shape_refl|exact IH]. Qed.
  Lemma shape_eq_sym st st' : shape_eq st st' -> shape_eq st' st.
  Proof. induction 1 as [|x y l l' Hxy Hl IH]; constructor; [apply same_shape_sym; exact Hxy|exact IH]. Qed.
  Lemma shape_eq_trans a : forall b c, shape_eq a b -> shape_eq b c -> shape_eq a c.
  Proof.
    induction a as [|x a IH]; intros b c H1 H2; inversion H1; subst; inversion H2; subst; constructor;
      [eapply same_shape_trans; eassumption|eapply IH; eassumption].
  Qed.
  Lemma shape_eq_length st st' : shape_eq st st' -> length st = length st'.
  Proof. induction 1 as [|x y l l' Hxy Hl IH]; cbn; auto. Qed.
  Lemma shape_eq_nth st st' i n : shape_eq st st' -> nth_error st i = Some n ->
    exists n', nth_error st' i = Some n' /\ same_shape n n'.
  Proof.
    intros H. revert i. induction H as [|x y l l' Hxy Hl IH]; intros [|i] E; cbn in *; try discriminate.
    - injection E as <-. eauto.
    - apply IH. exact E.
  Qed.
  Lemma shape_eq_set st i n n' : nth_error st i = Some n -> same_shape n n' -> shape_eq st (set_nth st i n').
  Proof.
    revert i. induction st as [|x l IH]; intros [|i] E H; cbn in *; try discriminate.
    - injection E as ->. constructor; [exact H|apply shape_eq_refl].
    - constructor; [apply same_shape_refl|apply IH; assumption].
  Qed.
  Lemma shape_bump n v : same_shape n (bump n v).
  Proof. repeat split. Qed.

  Lemma parents_down_shape st st' : shape_eq st st' -> parents_down st -> parents_down st'.
  Proof.
    intros H HP i n p E Ep. destruct (shape_eq_nth _ _ _ _ (shape_eq_sym _ _ H) E) as (n' & E' & Hs).
    apply (HP i n' p E'). destruct Hs as (_ & _ & Hp & _). congruence.
  Qed.
  Lemma on_path_shape st st' i j : shape_eq st st' -> on_path st i j -> on_path st' i j.
  Proof.
    intros H. induction 1 as [i n E|i n p j E Ep Hp IH]; destruct (shape_eq_nth _ _ _ _ H E) as (n' & E' & Hs).
    - eapply path_here. exact E'.
    - eapply path_up; [exact E'| |exact IH]. destruct Hs as (_ & _ & Hpp & _). congruence.
  Qed.
  Lemma on_path_le st i j : parents_down st -> on_path st i j -> (j <= i)%nat.
  Proof.
    intros HP. induction 1 as [i n E|i n p j E Ep Hp IH]; [lia|]. pose proof (HP _ _ _ E Ep). lia.
  Qed.
  Lemma on_path_lt st i j : parents_down st -> on_path st i j -> (j < length st)%nat.
  Proof.
    intros HP. induction 1 as [i n E|i n p j E Ep Hp IH]; [|exact IH]. eapply nth_error_lt. exact E.
  Qed.
  (** the parent of any node but the path's start, going up *)
  Lemma on_path_parent st i j n p : on_path st i j -> nth_error st j = Some n -> n_parent n = Some p ->
    (exists pn, nth_error st p = Some pn) -> on_path st i p.
  Proof.
    induction 1 as [i m E|i m q j E Ep Hp IH]; intros En Enp [pn Epn].
    - eapply path_up; [exact En|exact Enp|]. eapply path_here. exact Epn.
    - eapply path_up; [exact E|exact Ep|]. apply IH; eauto.
  Qed.
  (** one step down: a proper ancestor is entered through exactly one of its children *)
  Lemma on_path_child st i j : on_path st i j -> i <> j ->
    exists c cn, on_path st i c /\ nth_error st c = Some cn /\ n_parent cn = Some j.
  Proof.
    induction 1 as [i n E|i n p j E Ep Hp IH]; intros Hne; [congruence|].
    destruct (Nat.eq_dec p j) as [->|Hpj].
    - exists i, n. split; [eapply path_here; exact E|auto].
    - destruct (IH Hpj) as (c & cn & Hc & Ec & Ecp). exists c, cn. split; [|auto]. eapply path_up; eauto.
  Qed.
  Lemma on_path_child_unique st i c c' cn cn' j : parents_down st -> on_path st i c -> on_path st i c' ->
    nth_error st c = Some cn -> nth_error st c' = Some cn' -> n_parent cn = Some j -> n_parent cn' = Some j -> c = c'.
  Proof.
    intros HP H. revert c'. induction H as [i n E|i n p k E Ep Hp IH]; intros c' H' Ec Ec' Ej Ej'.
    - inversion H' as [? ? E1|? ? p' ? E1 Ep' Hp']; subst; [reflexivity|].
      rewrite E in E1. injection E1 as <-. rewrite E in Ec. injection Ec as <-. rewrite Ej in Ep'. injection Ep' as <-.
      pose proof (on_path_le _ _ _ HP Hp'). pose proof (HP _ _ _ Ec' Ej'). lia.
    - inversion H' as [? ? E1|? ? p' ? E1 Ep' Hp']; subst.
      + rewrite E in Ec'. injection Ec' as <-. rewrite Ep in Ej'. injection Ej' as ->.
        pose proof (on_path_le _ _ _ HP Hp). pose proof (HP _ _ _ Ec Ej). lia.
      + rewrite E in E1. injection E1 as <-. rewrite Ep in Ep'. injection Ep' as <-. apply IH; assumption.
  Qed.

  (** the path as a list *)
  Fixpoint pathl (fuel : nat) st (i : nat) : list nat :=
    match fuel with
    | O => []
    | S fuel' => match nth_error st i with
                 | None => []
                 | Some n => i :: match n_parent n with Some p => pathl fuel' st p | None => [] end
                 end
    end.
  Lemma pathl_spec st : parents_down st -> forall fuel i j, (i < fuel)%nat -> (In j (pathl fuel st i) <-> on_path st i j).
  Proof.
    intros HP. induction fuel as [|fuel IH]; intros i j Hf; [lia|]. cbn [pathl].
    destruct (nth_error st i) as [n|] eqn:E.
    - split.
      + intros [<-|H]; [eapply path_here; exact E|]. destruct (n_parent n) as [p|] eqn:Ep; [|destruct H].
        eapply path_up; [exact E|exact Ep|]. apply IH; [|exact H]. pose proof (HP _ _ _ E Ep). lia.
      + intros H. inversion H as [? ? E1|? ? p ? E1 Ep Hp]; subst; [left; reflexivity|right].
        rewrite E in E1. injection E1 as <-. rewrite Ep. apply IH; [|exact Hp]. pose proof (HP _ _ _ E Ep). lia.
    - split; [intros []|]. intros H. inversion H; congruence.
  Qed.
  Definition pathb st (i j : nat) : bool := existsb (Nat.eqb j) (pathl (S (length st)) st i).
  Lemma pathb_spec st i j : parents_down st -> (i < length st)%nat -> (pathb st i j = true <-> on_path st i j).
  Proof.
    intros HP Hi. unfold pathb. rewrite <- (pathl_spec st HP (S (length st)) i j ltac:(lia)). rewrite existsb_exists. split.
    - intros (x & Hx & E). apply Nat.eqb_eq in E. subst. exact Hx.
    - intros H. exists j. split; [exact H|apply Nat.eqb_refl].
  Qed.
  Lemma on_path_dec st i j : parents_down st -> (i < length st)%nat -> on_path st i j \/ ~ on_path st i j.
  Proof. intros HP Hi. rewrite <- (pathb_spec st i j HP Hi). destruct (pathb st i j); [left; reflexivity|right; discriminate]. Qed.

  (** ** backpropagate *)
  Lemma backprop_fuel_spec v : forall fuel i st, (i < fuel)%nat -> (i < length st)%nat -> parents_down st ->
    exists st', backprop_fuel fuel i v st = Ok st' /\ shape_eq st st'
      /\ forall j n, nth_error st j = Some n ->
           (on_path st i j -> nth_error st' j = Some (bump n v))
           /\ (~ on_path st i j -> nth_error st' j = Some n).
  Proof.
    induction fuel as [|fuel IH]; intros i st Hf Hi HP; [lia|]. cbn [backprop_fuel].
    destruct (nth_error_ex _ st i Hi) as [n E]. rewrite E.
    pose proof (shape_eq_set st i n (bump n v) E (shape_bump n v)) as HS.
    destruct (n_parent n) as [p|] eqn:Ep.
    - pose proof (HP _ _ _ E Ep) as Hpi.
      destruct (IH p (set_nth st i (bump n v))) as (st' & Eb & HS' & HN); [lia|rewrite length_set_nth; lia|eapply parents_down_shape; eassumption|].
      exists st'. split; [exact Eb|]. split; [eapply shape_eq_trans; eassumption|].
      intros j m Em. destruct (Nat.eq_dec i j) as [<-|Hij].
      + rewrite E in Em. injection Em as <-.
        destruct (HN i (bump n v)) as [_ H2]; [apply nth_error_set_same; exact Hi|].
        assert (Hno : ~ on_path (set_nth st i (bump n v)) p i).
        { intros H. apply on_path_le in H; [lia|eapply parents_down_shape; eassumption]. }
        split; [intros _; apply H2; exact Hno|]. intros Hn. destruct Hn. eapply path_here. exact E.
      + destruct (HN j m) as [H1 H2]; [rewrite nth_error_set_other by exact Hij; exact Em|]. split; intros H.
        * apply H1. apply (on_path_shape st); [exact HS|]. inversion H as [|? ? p' ? E1 Ep' Hp']; subst; [congruence|].
          rewrite E in E1. injection E1 as <-. rewrite Ep in Ep'. injection Ep' as <-. exact Hp'.
        * apply H2. intros H'. apply H. eapply path_up; [exact E|exact Ep|].
          apply (on_path_shape (set_nth st i (bump n v))); [apply shape_eq_sym; exact HS|exact H'].
    - exists (set_nth st i (bump n v)). split; [reflexivity|]. split; [exact HS|].
      intros j m Em. destruct (Nat.eq_dec i j) as [<-|Hij].
      + rewrite E in Em. injection Em as <-. rewrite nth_error_set_same by exact Hi. split; [reflexivity|].
        intros Hn. destruct Hn. eapply path_here. exact E.
      + rewrite nth_error_set_other by exact Hij. split; intros H; [|exact Em].
        inversion H as [|? ? p' ? E1 Ep' Hp']; subst; [congruence|]. rewrite E in E1. injection E1 as <-. congruence.
  Qed.
  Lemma backprop_spec i v st : (i < length st)%nat -> parents_down st ->
    exists st', backpropagate i v st = Ok st' /\ shape_eq st st'
      /\ forall j n, nth_error st j = Some n ->
           (on_path st i j -> nth_error st' j = Some (bump n v))
           /\ (~ on_path st i j -> nth_error st' j = Some n).
  Proof. intros Hi HP. apply backprop_fuel_spec; [lia|assumption|assumption]. Qed.

  (** ** trees *)
  Lemma tree_parents_down s0 st : tree s0 st -> parents_down st.
  Proof.
    intros HT i n p E Ep. destruct i as [|i].
    - destruct (tree_root _ _ _ HT) as (n0 & E0 & Hp0 & _). rewrite E in E0. injection E0 as ->. congruence.
    - destruct (tree_parent _ _ _ HT _ _ E ltac:(lia)) as (p' & pn & a & vm & r & r' & Hp & Hlt & _).
      rewrite Ep in Hp. injection Hp as ->. exact Hlt.
  Qed.
  Lemma tree_shape s0 st st' : shape_eq st st' -> tree s0 st -> tree s0 st'.
  Proof.
    intros HS HT. pose proof (shape_eq_sym _ _ HS) as HS'.
    constructor.
    - destruct (tree_root _ _ _ HT) as (n & E & H1 & H2 & H3). destruct (shape_eq_nth _ _ _ _ HS E) as (n' & E' & Hs).
      exists n'. unfold same_shape in Hs. intuition congruence.
    - intros i n' E'. destruct (shape_eq_nth _ _ _ _ HS' E') as (n & E & Hs). pose proof (tree_idx _ _ _ HT _ _ E).
      unfold same_shape in Hs. intuition congruence.
    - intros i n' E' Hi. destruct (shape_eq_nth _ _ _ _ HS' E') as (n & E & Hs).
      destruct (tree_parent _ _ _ HT _ _ E Hi) as (p & pn & a & vm & r & r' & Hp & Hlt & Epn & Hc & Ha & Hv & Hin & Hap).
      destruct (shape_eq_nth _ _ _ _ HS Epn) as (pn' & Epn' & Hs').
      exists p, pn', a, vm, r, r'. unfold same_shape in Hs, Hs'.
      destruct Hs as (S1 & S2 & S3 & S4 & S5 & S6 & S7), Hs' as (T1 & T2 & T3 & T4 & T5 & T6 & T7).
      rewrite <- T1, <- T4, S3, S6, S1. auto 10.
    - intros i n' c E' Hc. destruct (shape_eq_nth _ _ _ _ HS' E') as (n & E & Hs).
      assert (Hc' : In c (n_children n)) by (unfold same_shape in Hs; intuition congruence).
      destruct (tree_children _ _ _ HT _ _ _ E Hc') as (cn & Ec & Hp). destruct (shape_eq_nth _ _ _ _ HS Ec) as (cn' & Ec' & Hs'').
      exists cn'. unfold same_shape in Hs''. intuition congruence.
    - intros i n' E'. destruct (shape_eq_nth _ _ _ _ HS' E') as (n & E & Hs).
      destruct (tree_moves _ _ _ HT _ _ E) as (vm & acts & Hv & Hvm & HF).
      exists vm, acts. unfold same_shape in Hs. destruct Hs as (S1 & S2 & S3 & S4 & S5 & S6 & S7).
      rewrite S1, S4, S7. split; [exact Hv|]. split; [exact Hvm|].
      clear -HF HS. induction HF as [|c a l l' (cn & Ec & Ha) HF IH]; constructor; [|exact IH].
      destruct (shape_eq_nth _ _ _ _ HS Ec) as (cn' & Ec' & Hs'). exists cn'. unfold same_shape in Hs'. intuition congruence.
    - intros i n' E' Hw. destruct (shape_eq_nth _ _ _ _ HS' E') as (n & E & Hs). unfold same_shape in Hs.
      destruct Hs as (S1 & S2 & S3 & S4 & S5 & S6 & S7). rewrite S4. rewrite S1 in Hw. eapply tree_leaf; eassumption.
  Qed.
  Lemma tree_children_nodup s0 st i n : tree s0 st -> nth_error st i = Some n -> NoDup (n_children n).
  Proof.
    intros HT E. apply (NoDup_count_occ Nat.eq_dec). intros c.
    destruct (in_dec Nat.eq_dec c (n_children n)) as [Hin|Hn]; [|apply (count_occ_not_In Nat.eq_dec) in Hn; lia].
    destruct (tree_children _ _ _ HT _ _ _ E Hin) as (cn & Ec & Hp).
    pose proof (tree_parents_down _ _ HT _ _ _ Ec Hp) as Hlt.
    destruct (tree_parent _ _ _ HT _ _ Ec ltac:(lia)) as (p & pn & a & vm & r & r' & Hp' & _ & Epn & Hc & _).
    rewrite Hp in Hp'. injection Hp' as <-. rewrite E in Epn. injection Epn as <-. lia.
  Qed.
  Lemma tree_child_gt s0 st i n c : tree s0 st -> nth_error st i = Some n -> In c (n_children n) ->
    (i < c < length st)%nat /\ exists cn, nth_error st c = Some cn /\ n_parent cn = Some i /\ n_idx cn = c.
  Proof.
    intros HT E Hin. destruct (tree_children _ _ _ HT _ _ _ E Hin) as (cn & Ec & Hp).
    pose proof (tree_parents_down _ _ HT _ _ _ Ec Hp). pose proof (nth_error_lt _ _ _ _ Ec).
    split; [lia|]. exists cn. split; [exact Ec|]. split; [exact Hp|]. eapply tree_idx; eassumption.
  Qed.

  (** ** expand *)
  (** the nodes of the store after expanding node [i] by move [a] into state [s'] *)
  Definition exp_node n (a : Mv G) (ci : nat) (ex : list (Mv G)) : node G :=
    mkNode (n_state n) (n_idx n) (n_parent n) (n_children n ++ [ci]) (n_visits n) (n_value n) (n_policy n) (n_action n) ex.

  Lemma expand_inv n st r ci st' r' : expand n st r = Ok (ci, st', r') -> (n_idx n < length st)%nat ->
    exists ex a s' vm', n_exp n = ex ++ [a] /\ g_apply G (n_state n) a r = Ok (s', r') /\ g_valid G s' = Ok vm'
      /\ ci = length st
      /\ st' = set_nth st (n_idx n) (exp_node n a ci ex) ++ [mkNode s' ci (Some (n_idx n)) [] f0 f0 f0 (Some a) vm'].
  Proof.
    intros H Hlt. unfold expand in H. destruct (rev (n_exp n)) as [|a rest] eqn:Er; [discriminate|].
    assert (Ee : n_exp n = rev rest ++ [a]) by (rewrite <- (rev_involutive (n_exp n)), Er; reflexivity).
    destruct (g_apply G (n_state n) a r) as [[s' r1]|] eqn:Ea; cbn in H; [|discriminate].
    unfold add_node, node_new in H. destruct (g_valid G s') as [vm'|] eqn:Ev; cbn in H; [|discriminate].
    unfold set_node in H. cbn [n_idx] in H. rewrite app_length in H. cbn [length] in H.
    destruct (Nat.ltb_spec (n_idx n) (length st + 1)); [|lia]. cbn in H. injection H as <- <- <-.
    exists (rev rest), a, s', vm'. repeat split; auto.
    unfold exp_node. generalize (mkNode (n_state n) (n_idx n) (n_parent n) (n_children n ++ [length st]) (n_visits n) (n_value n) (n_policy n) (n_action n) (rev rest)).
    intros x. apply set_nth_app. exact Hlt.
  Qed.
  Lemma nth_error_snoc (A : Type) (l : list A) x i :
    nth_error (l ++ [x]) i = if (i =? length l)%nat then Some x else nth_error l i.
  Proof.
    destruct (Nat.eqb_spec i (length l)) as [->|Hn].
    - rewrite nth_error_app2, Nat.sub_diag by lia. reflexivity.
    - destruct (Nat.lt_ge_cases i (length l)); [apply nth_error_app1; assumption|].
      transitivity (@None A); [|symmetry]; apply nth_error_None; [rewrite app_length; cbn|]; lia.
  Qed.

  Section Expanded.
    (** the store [st'] after expanding node [i] of the tree [st] *)
    Variables (s0 : St G) (st : store G) (i : nat) (n : node G) (ex : list (Mv G)) (a : Mv G)
              (s' : St G) (vm' : list (Mv G)) (r r' : rng).
    Hypothesis HT : tree s0 st.
    Hypothesis En : nth_error st i = Some n.
    Hypothesis Hw : g_winner G (n_state n) = None.
    Hypothesis Ee : n_exp n = ex ++ [a].
    Hypothesis Ea : g_apply G (n_state n) a r = Ok (s', r').
    Hypothesis Ev : g_valid G s' = Ok vm'.
    Let ci := length st.
    Let n1 := exp_node n a ci ex.
    Let nc : node G := mkNode s' ci (Some (n_idx n)) [] f0 f0 f0 (Some a) vm'.
    Let st' := set_nth st i n1 ++ [nc].

    Lemma ex_len : length st' = S (length st).
    Proof. unfold st'. rewrite app_length, length_set_nth. cbn. lia. Qed.
    Lemma ex_nth j : nth_error st' j =
      if (j =? ci)%nat then Some nc else if (j =? i)%nat then Some n1 else nth_error st j.
    Proof.
      unfold st'. rewrite nth_error_snoc, length_set_nth. fold ci.
      destruct (Nat.eqb_spec j ci); [reflexivity|]. destruct (Nat.eqb_spec j i) as [->|Hj].
      - apply nth_error_set_same. eapply nth_error_lt; exact En.
      - apply nth_error_set_other. congruence.
    Qed.
    Lemma ex_i_lt : (i < ci)%nat.
    Proof. eapply nth_error_lt; exact En. Qed.
    Lemma ex_n_idx : n_idx n = i.
    Proof. eapply tree_idx; eassumption. Qed.
    (** a node of the new store other than the new child comes from the old store *)
    Lemma ex_old j m : nth_error st' j = Some m -> j <> ci ->
      exists m0, nth_error st j = Some m0 /\ n_state m = n_state m0 /\ n_idx m = n_idx m0 /\ n_parent m = n_parent m0
        /\ n_action m = n_action m0 /\ n_visits m = n_visits m0 /\ n_value m = n_value m0 /\ n_policy m = n_policy m0
        /\ ((j = i /\ m0 = n /\ n_children m = n_children n ++ [ci] /\ n_exp m = ex)
            \/ (j <> i /\ m = m0)).
    Proof.
      intros E Hj. rewrite ex_nth in E. destruct (Nat.eqb_spec j ci); [contradiction|].
      destruct (Nat.eqb_spec j i) as [->|Hji].
      - injection E as <-. exists n. repeat split; auto.
      - exists m. repeat split; auto.
    Qed.
    Lemma ex_new j m : nth_error st j = Some m ->
      exists m', nth_error st' j = Some m' /\ n_state m' = n_state m /\ n_parent m' = n_parent m /\ n_action m' = n_action m
        /\ n_children m' = (if (j =? i)%nat then n_children n ++ [ci] else n_children m).
    Proof.
      intros E. pose proof (nth_error_lt _ _ _ _ E) as Hlt. rewrite ex_nth. fold ci in Hlt.
      destruct (Nat.eqb_spec j ci); [lia|]. destruct (Nat.eqb_spec j i) as [->|Hji].
      - rewrite En in E. injection E as <-. exists n1. repeat split; auto.
      - exists m. repeat split; auto.
    Qed.

    Lemma ex_tree : tree s0 st'.
    Proof.
      pose proof ex_i_lt as Hi. pose proof ex_n_idx as Hidx.
      assert (Hvin : exists vm, g_valid G (n_state n) = Ok vm /\ In a vm).
      { destruct (tree_moves _ _ _ HT _ _ En) as (vm & acts & Hv & Hvm & _). exists vm. split; [exact Hv|].
        rewrite Hvm, Ee. apply in_or_app. left. apply in_or_app. right. left. reflexivity. }
      assert (Hci : ~ In ci (n_children n)).
      { intros H. destruct (tree_child_gt _ _ _ _ _ HT En H) as [H1 _]. unfold ci in H1. lia. }
      constructor.
      - destruct (tree_root _ _ _ HT) as (m & E & H1 & H2 & H3).
        destruct (ex_new _ _ E) as (m' & E' & G1 & G2 & G3 & _). exists m'. split; [exact E'|]. rewrite G1, G2, G3. auto.
      - intros j m E. destruct (Nat.eq_dec j ci) as [->|Hj].
        + rewrite ex_nth, Nat.eqb_refl in E. injection E as <-. reflexivity.
        + destruct (ex_old _ _ E Hj) as (m0 & E0 & _ & Hx & _). rewrite Hx. eapply tree_idx; eassumption.
      - intros j m E Hj0. destruct (Nat.eq_dec j ci) as [->|Hj].
        + rewrite ex_nth, Nat.eqb_refl in E. injection E as <-. destruct Hvin as (vm & Hv & Hin).
          exists i, n1, a, vm, r, r'. cbn [nc n_parent n_action n_state n1 exp_node]. rewrite Hidx.
          split; [reflexivity|]. split; [exact Hi|]. split.
          { rewrite ex_nth. destruct (Nat.eqb_spec i ci); [lia|]. rewrite Nat.eqb_refl. reflexivity. }
          split; [|auto].
          change (n_children n1) with (n_children n ++ [ci]). rewrite count_occ_app. apply (count_occ_not_In Nat.eq_dec) in Hci. rewrite Hci.
          cbn. destruct (Nat.eq_dec ci ci); [reflexivity|congruence].
        + destruct (ex_old _ _ E Hj) as (m0 & E0 & X1 & X2 & X3 & X4 & _).
          destruct (tree_parent _ _ _ HT _ _ E0 Hj0) as (p & pn & b & vm & q & q' & Hp & Hlt & Epn & Hc & Hb & Hv & Hin & Hap).
          destruct (ex_new _ _ Epn) as (pn' & Epn' & Y1 & Y2 & Y3 & Y4).
          exists p, pn', b, vm, q, q'. rewrite X3, X4, Y1, X1. split; [exact Hp|]. split; [exact Hlt|]. split; [exact Epn'|].
          split; [|auto]. rewrite Y4. destruct (Nat.eqb_spec p i) as [->|Hpi]; [|exact Hc].
          rewrite En in Epn. injection Epn as <-. rewrite count_occ_app, Hc. cbn. destruct (Nat.eq_dec ci j); [congruence|reflexivity].
      - intros j m c E Hc. destruct (Nat.eq_dec j ci) as [->|Hj].
        + rewrite ex_nth, Nat.eqb_refl in E. injection E as <-. destruct Hc.
        + destruct (ex_old _ _ E Hj) as (m0 & E0 & X1 & X2 & X3 & X4 & X5 & X6 & X7 & [(-> & -> & XC & XE)|(Hji & ->)]).
          * rewrite XC in Hc. apply in_app_or in Hc. destruct Hc as [Hc|[<-|[]]].
            -- destruct (tree_children _ _ _ HT _ _ _ En Hc) as (cn & Ec & Hp).
               destruct (ex_new _ _ Ec) as (cn' & Ec' & Y1 & Y2 & Y3 & Y4). exists cn'. split; [exact Ec'|congruence].
            -- exists nc. split; [rewrite ex_nth, Nat.eqb_refl; reflexivity|]. cbn [nc n_parent]. congruence.
          * destruct (tree_children _ _ _ HT _ _ _ E0 Hc) as (cn & Ec & Hp).
            destruct (ex_new _ _ Ec) as (cn' & Ec' & Y1 & Y2 & Y3 & Y4). exists cn'. split; [exact Ec'|congruence].
      - assert (HF' : forall l acts, Forall2 (fun c b => exists cn, nth_error st c = Some cn /\ n_action cn = Some b) l acts ->
           Forall2 (fun c b => exists cn, nth_error st' c = Some cn /\ n_action cn = Some b) l acts).
        { intros l acts H. induction H as [|c b l l' (cn & Ec & Hb) HF IH]; constructor; [|exact IH].
          destruct (ex_new _ _ Ec) as (cn' & Ec' & Y1 & Y2 & Y3 & Y4). exists cn'. split; [exact Ec'|congruence]. }
        intros j m E. destruct (Nat.eq_dec j ci) as [->|Hj].
        + rewrite ex_nth, Nat.eqb_refl in E. injection E as <-. exists vm', []. cbn [nc n_state n_exp n_children rev].
          rewrite app_nil_r. auto.
        + destruct (ex_old _ _ E Hj) as (m0 & E0 & X1 & X2 & X3 & X4 & X5 & X6 & X7 & [(-> & -> & XC & XE)|(Hji & ->)]).
          * destruct (tree_moves _ _ _ HT _ _ En) as (vm & acts & Hv & Hvm & HF).
            exists vm, (acts ++ [a]). rewrite X1, XC, XE. split; [exact Hv|]. split.
            -- rewrite Hvm, Ee, rev_app_distr. cbn. rewrite <- app_assoc. reflexivity.
            -- apply Forall2_app; [apply HF'; exact HF|]. constructor; [|constructor].
               exists nc. split; [rewrite ex_nth, Nat.eqb_refl; reflexivity|reflexivity].
          * destruct (tree_moves _ _ _ HT _ _ E0) as (vm & acts & Hv & Hvm & HF). exists vm, acts. auto.
      - intros j m E Hwm. destruct (Nat.eq_dec j ci) as [->|Hj].
        + rewrite ex_nth, Nat.eqb_refl in E. injection E as <-. reflexivity.
        + destruct (ex_old _ _ E Hj) as (m0 & E0 & X1 & X2 & X3 & X4 & X5 & X6 & X7 & [(-> & -> & XC & XE)|(Hji & ->)]).
          * congruence.
          * eapply tree_leaf; eassumption.
    Qed.
  End Expanded.
End P.
