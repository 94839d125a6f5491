(** * BgGen: exactly which single moves the generator offers, and which
    sequences the action trees contain. *)
From Verif Require Import Base BaseFacts BgModel BgSpec BgStep.
From Coq Require Import Permutation.
Require Import ZifyBool ZifyNat.

(** ** The generator's relation in rule-book terms *)
(** On the home points farther from bearing off than [i] the opponent has at
    least as many checkers as [s]. *)
Definition thin (q : pos) (s : side) (i : Z) : Prop :=
  0 <= zsum (fun j => if (pip s i <? pip s j) && (pip s j <=? 6)
                      then men q (opp s) j - men q s j else 0).
(** Does the inner loop of the generator for [s] visit the point of the die itself? *)
Definition visits (s : side) (d k : Z) : Prop :=
  match s with P1 => k < d | P2 => k <= d end.

Inductive gen (s : side) (d : Z) (q : pos) : mv -> Prop :=
| gen_enter :
    0 < bar q s -> ~ blocked q s (entry s d) -> gen s d q (Enter (entry s d))
| gen_move i :
    bar q s = 0 -> on_board i -> 0 < men q s i ->
    on_board (i + sign s * d) -> ~ blocked q s (i + sign s * d) ->
    gen s d q (Move i (i + sign s * d))
| gen_off_exact i :
    all_home q s -> on_board i -> 0 < men q s i -> pip s i = d -> gen s d q (Off i)
| gen_off_thin i :
    all_home q s -> on_board i -> 0 < men q s i -> visits s d (pip s i) -> thin q s i ->
    (forall j, on_board j -> 0 < men q s j -> pip s i < pip s j -> visits s d (pip s j) -> ~ thin q s j) ->
    gen s d q (Off i).

Definition gstuck (s : side) (dice : list Z) (q : pos) : Prop :=
  forall d m, In d dice -> ~ gen s d q m.

(** ** Pure versions of the generator's loops *)
Lemma mflat_ok {A B} (f : A -> res (list B)) g l :
  (forall x, In x l -> f x = Ok (g x)) -> mflat f l = Ok (flat_map g l).
Proof.
  intros H. unfold mflat. rewrite (mmap_ok f g l H). cbn [bind]. now rewrite flat_map_concat_map.
Qed.
Lemma mfind_ok {A} (f : A -> res bool) g l :
  (forall x, In x l -> f x = Ok (g x)) -> mfind f l = Ok (find g l).
Proof.
  induction l as [|x l IH]; intros H; cbn; [reflexivity|].
  rewrite H by now left. cbn. destruct (g x); [reflexivity|]. apply IH. intros; apply H; now right.
Qed.

Lemma range_S a b : a < b -> range a b = range a (b - 1) ++ [b - 1].
Proof.
  intros H. unfold range. replace (Z.to_nat (b - a)) with (S (Z.to_nat (b - 1 - a))) by lia.
  rewrite seq_S, map_app. cbn [map]. f_equal. f_equal. lia.
Qed.
Lemma range_cons a b : a < b -> range a b = a :: range (a + 1) b.
Proof.
  intros H. unfold range. replace (Z.to_nat (b - a)) with (S (Z.to_nat (b - (a + 1)))) by lia.
  cbn [seq map]. f_equal; [lia|]. rewrite <- seq_shift, map_map. apply map_ext. intros; lia.
Qed.
Lemma range_nil a b : b <= a -> range a b = [].
Proof. intros H. unfold range. replace (Z.to_nat (b - a)) with 0%nat by lia. reflexivity. Qed.
Lemma range_app a b c : a <= b -> b <= c -> range a c = range a b ++ range b c.
Proof.
  intros H1 H2. replace c with (b + Z.of_nat (Z.to_nat (c - b))) by lia.
  induction (Z.to_nat (c - b)) as [|n IH].
  - rewrite Z.add_0_r, (range_nil b b), app_nil_r by lia. reflexivity.
  - rewrite (range_S a), (range_S b) by lia.
    replace (b + Z.of_nat (S n) - 1) with (b + Z.of_nat n) by lia. now rewrite IH, app_assoc.
Qed.

Lemma find_up f a b j :
  find f (range a b) = Some j <-> a <= j < b /\ f j = true /\ forall k, a <= k < j -> f k = false.
Proof.
  remember (Z.to_nat (b - a)) as n eqn:En. revert a En; induction n as [|n IH]; intros a En.
  - rewrite range_nil by lia. cbn. split; [discriminate|]. intros (H & _). lia.
  - rewrite range_cons by lia. cbn. destruct (f a) eqn:E.
    + split.
      * intros [= <-]. split; [lia|]. split; [auto|]. intros; lia.
      * intros (H1 & H2 & H3). f_equal. destruct (Z.eq_dec a j); [auto|].
        rewrite H3 in E by lia. discriminate.
    + rewrite IH by lia. split; intros (H1 & H2 & H3).
      * split; [lia|]. split; [auto|]. intros k Hk. destruct (Z.eq_dec a k); [congruence|]. apply H3; lia.
      * split; [destruct (Z.eq_dec a j); [congruence|lia]|]. split; [auto|]. intros; apply H3; lia.
Qed.
Lemma find_down f a b j :
  find f (rev (range a b)) = Some j <-> a <= j < b /\ f j = true /\ forall k, j < k < b -> f k = false.
Proof.
  remember (Z.to_nat (b - a)) as n eqn:En. revert b En; induction n as [|n IH]; intros b En.
  - rewrite range_nil by lia. cbn. split; [discriminate|]. intros (H & _). lia.
  - rewrite range_S, rev_app_distr by lia. cbn. destruct (f (b - 1)) eqn:E.
    + split.
      * intros [= <-]. split; [lia|]. split; [auto|]. intros; lia.
      * intros (H1 & H2 & H3). f_equal. destruct (Z.eq_dec (b - 1) j); [auto|].
        rewrite H3 in E by lia. discriminate.
    + rewrite IH by lia. split; intros (H1 & H2 & H3).
      * split; [lia|]. split; [auto|]. intros k Hk. destruct (Z.eq_dec (b - 1) k); [congruence|]. apply H3; lia.
      * split; [destruct (Z.eq_dec (b - 1) j); [congruence|lia]|]. split; [auto|]. intros; apply H3; lia.
Qed.

Lemma slice_range (l : list Z) a b :
  0 <= a <= b -> b <= Z.of_nat (length l) ->
  firstn (Z.to_nat (b - a)) (skipn (Z.to_nat a) l) = map (at_pt l) (range a b).
Proof.
  intros H1 H2. apply (nth_ext _ _ 0 0).
  - rewrite firstn_length, skipn_length, map_length, range_length. lia.
  - intros n Hn. rewrite firstn_length, skipn_length in Hn.
    rewrite nth_firstn, nth_skipn by lia.
    rewrite (nth_indep (map (at_pt l) (range a b)) 0 (at_pt l 0)) by (rewrite map_length, range_length; lia).
    rewrite map_nth, nth_range by lia. unfold at_pt. f_equal. lia.
Qed.

(** partial sums of the board as sums over all 24 points *)
Lemma lsum_zero l : (forall x, In x l -> x = 0) -> lsum l = 0.
Proof.
  induction l as [|x l IH]; intros H; [reflexivity|]. rewrite lsum_cons, IH.
  - rewrite (H x) by now left. lia.
  - intros y Hy. apply H. now right.
Qed.
Lemma zsum_range f a b :
  0 <= a <= b -> b <= 24 ->
  zsum (fun i => if (a <=? i) && (i <? b) then f i else 0) = lsum (map f (range a b)).
Proof.
  intros H1 H2. unfold zsum. change (fold_right Z.add 0) with lsum.
  rewrite (range_app 0 a 24), (range_app a b 24), !map_app, !lsum_app by lia.
  assert (E : forall u v, v <= a \/ b <= u ->
    lsum (map (fun i => if (a <=? i) && (i <? b) then f i else 0) (range u v)) = 0).
  { intros u v Huv. apply lsum_zero. intros x Hx. apply in_map_iff in Hx. destruct Hx as (i & <- & Hi).
    apply In_range in Hi. destruct (Z.leb_spec a i), (Z.ltb_spec i b); cbn; auto; lia. }
  rewrite (E 0 a), (E b 24) by lia. rewrite Z.add_0_l, Z.add_0_r. f_equal. apply map_ext_in.
  intros i Hi. apply In_range in Hi. destruct (Z.leb_spec a i), (Z.ltb_spec i b); cbn; auto; lia.
Qed.

Definition bounded (bd : list Z) := length bd = 24%nat /\ forall i, on_board i -> -15 <= at_pt bd i <= 15.
Lemma WF_bounded b : WF b -> bounded (pts b).
Proof. intros H. split; [now apply WF_len|]. intros; now apply WF_at. Qed.

Lemma sum_slice pr bd a b :
  bounded bd -> 0 <= a <= b -> b <= 24 -> b - a <= 6 ->
  (sl <- slice bd a b ;; sum_i8 pr sl) = Ok (lsum (map (at_pt bd) (range a b))).
Proof.
  intros (Hl & Hb) H1 H2 H3. rewrite slice_ok by lia. cbn [bind].
  rewrite slice_range by lia. unfold sum_i8. rewrite (sum_i8_ok pr _ 0 15).
  - f_equal.
  - lia.
  - intros x Hx. apply in_map_iff in Hx. destruct Hx as (i & <- & Hi). apply In_range in Hi.
    apply Hb. unfold on_board; lia.
  - rewrite map_length, range_length. lia.
  - rewrite map_length, range_length. lia.
Qed.

Definition test1 (bd : list Z) (j : Z) : bool :=
  (at_pt bd j <? 0) && (0 <=? lsum (map (at_pt bd) (range (j + 1) 6))).
Definition test2 (bd : list Z) (j : Z) : bool :=
  (0 <? at_pt bd j) && (lsum (map (at_pt bd) (range 18 j)) <=? 0).
Definition pure_c1 (bd : list Z) (m : Z) : list pact :=
  (if at_pt bd (m - 1) <? 0 then [(m, (m - 1, -1))] else [])
  ++ match find (test1 bd) (rev (range 0 (m - 1))) with Some j => [(m, (j, -1))] | None => [] end.
Definition pure_c2 (bd : list Z) (m : Z) : list pact :=
  (if 0 <? at_pt bd (24 - m) then [(m, (24 - m, -1))] else [])
  ++ match find (test2 bd) (range (24 - m) 24) with Some j => [(m, (j, -1))] | None => [] end.

Lemma collect_p1_ok pr bd m : bounded bd -> die m -> collect_p1 pr bd m = Ok (pure_c1 bd m).
Proof.
  intros HB Hm. unfold die in Hm. pose proof HB as (Hl & _). unfold collect_p1, pure_c1.
  rewrite i8_ok by lia. cbn [bind]. rewrite idx_at by lia. cbn [bind].
  rewrite (mfind_ok _ (test1 bd)); [reflexivity|].
  intros j Hj. apply in_rev in Hj. apply In_range in Hj.
  rewrite idx_at by lia. cbn [bind].
  pose proof (sum_slice pr bd (j + 1) 6 HB) as E.
  destruct (slice bd (j + 1) 6) as [sl|]; cbn [bind] in *; [|exfalso; discriminate E; lia].
  rewrite E by lia. reflexivity.
Qed.
Lemma collect_p2_ok pr bd m : bounded bd -> die m -> collect_p2 pr bd m = Ok (pure_c2 bd m).
Proof.
  intros HB Hm. unfold die in Hm. pose proof HB as (Hl & _). unfold collect_p2, pure_c2.
  rewrite i8_ok by lia. cbn [bind]. rewrite idx_at by lia. cbn [bind].
  rewrite (mfind_ok _ (test2 bd)); [reflexivity|].
  intros j Hj. apply In_range in Hj.
  rewrite idx_at by lia. cbn [bind].
  pose proof (sum_slice pr bd 18 j HB) as E.
  destruct (slice bd 18 j) as [sl|]; cbn [bind] in *; [|exfalso; discriminate E; lia].
  rewrite E by lia. reflexivity.
Qed.

Definition pure_n (bd : list Z) (p m : Z) (pn : Z * Z) : list pact :=
  let (point, n) := pn in
  if (p =? -1) && (n <=? p) && (0 <=? point - m) && (at_pt bd (point - m) <=? 1)
  then [(m, (point, point - m))]
  else if (p =? 1) && (p <=? n) && (point + m <=? 23) && (-1 <=? at_pt bd (point + m))
  then [(m, (point, point + m))] else [].
Lemma normal_one_ok pr bd p m i n :
  bounded bd -> die m -> on_board i -> normal_one pr bd p m (i, n) = Ok (pure_n bd p m (i, n)).
Proof.
  intros (Hl & _) Hm Hi. unfold die in Hm. unfold on_board in Hi. unfold normal_one, pure_n.
  assert (C2 : (c2 <- (if (p =? 1) && (p <=? n) then
             q <- i8 pr (i + m) ;;
             if q <=? 23 then x <- idx bd q ;; Ok (if -1 <=? x then Some q else None)
             else Ok None
           else Ok None) ;;
    match c2 with Some q => Ok [(m, (i, q))] | None => Ok [] end) =
    Ok (if (p =? 1) && (p <=? n) && (i + m <=? 23) && (-1 <=? at_pt bd (i + m))
        then [(m, (i, i + m))] else [])).
  { destruct ((p =? 1) && (p <=? n)) eqn:E; cbn [bind andb]; [|reflexivity].
    rewrite i8_ok by lia. cbn [bind].
    destruct (Z.leb_spec (i + m) 23); cbn [bind andb]; [|reflexivity].
    rewrite idx_at by lia. cbn [bind]. destruct (-1 <=? at_pt bd (i + m)); reflexivity. }
  destruct ((p =? -1) && (n <=? p)) eqn:E; cbn [bind andb]; [|exact C2].
  rewrite i8_ok by lia. cbn [bind].
  destruct (Z.leb_spec 0 (i - m)); cbn [bind andb]; [|exact C2].
  rewrite idx_at by lia. cbn [bind]. destruct (at_pt bd (i - m) <=? 1); [reflexivity|exact C2].
Qed.

Lemma In_enum (l : list Z) i n :
  In (i, n) (enum l) <-> 0 <= i < Z.of_nat (length l) /\ n = at_pt l i.
Proof.
  unfold enum. split.
  - intros H. apply (In_nth _ _ (0, 0)) in H. destruct H as (k & Hk & E).
    rewrite combine_length, range_length in Hk.
    rewrite combine_nth in E by (rewrite range_length; lia). rewrite nth_range in E by lia.
    injection E as E1 E2. split; [lia|]. subst. unfold at_pt. f_equal. lia.
  - intros (Hi & ->). replace (i, at_pt l i) with (nth (Z.to_nat i) (combine (range 0 (Z.of_nat (length l))) l) (0, 0)).
    + apply nth_In. rewrite combine_length, range_length. lia.
    + rewrite combine_nth by (rewrite range_length; lia). rewrite nth_range by lia.
      unfold at_pt. f_equal. lia.
Qed.

(** ** Sorting and deduplicating keeps the members *)
Lemma pact_eqb_eq a b : pact_eqb a b = true <-> a = b.
Proof.
  destruct a as [m [f t]], b as [m' [f' t']]. cbn. rewrite !andb_true_iff, !Z.eqb_eq.
  split; [intros ((-> & ->) & ->); reflexivity|intros [= -> -> ->]; auto].
Qed.
Lemma In_insert x y l : In x (insert_pact y l) <-> x = y \/ In x l.
Proof.
  induction l as [|z l IH]; cbn; [intuition|]. destruct (pact_leb y z); cbn; [intuition|]. rewrite IH. intuition.
Qed.
Lemma In_sort x l : In x (sort_pacts l) <-> In x l.
Proof. induction l as [|y l IH]; cbn; [reflexivity|]. rewrite In_insert, IH. intuition. Qed.
Lemma In_dedup x l : In x (dedup_pacts l) <-> In x l.
Proof.
  induction l as [|y [|z l] IH]; cbn [dedup_pacts]; [reflexivity|reflexivity|].
  destruct (pact_eqb y z) eqn:E.
  - apply pact_eqb_eq in E. subst z. rewrite IH. cbn. intuition.
  - cbn [In]. rewrite IH. cbn. intuition.
Qed.

(** ** Translation of the tests *)
Lemma at_view b s i : on_board i -> WF b ->
  sign s * at_pt (pts b) i = men (view b) s i - men (view b) (opp s) i.
Proof. intros Hi _. rewrite !men_view by auto. destruct s; cbn [opp sign]; lia. Qed.
Lemma men_pos b s i : on_board i -> (0 < men (view b) s i <-> 0 < sign s * at_pt (pts b) i).
Proof. intros Hi. rewrite men_view by auto. lia. Qed.
Lemma not_blocked_at b s i : on_board i -> (~ blocked (view b) s i <-> -2 < sign s * at_pt (pts b) i).
Proof. intros Hi. unfold blocked. rewrite men_view by auto. destruct s; cbn [opp sign]; lia. Qed.
Lemma collectible_home b s : is_collectible b (sign s) = true <-> all_home (view b) s.
Proof.
  unfold is_collectible, all_home. destruct s; cbn [sign Z.eqb Pos.eqb view bar].
  - destruct (Z.eqb_spec (hit1 b) 0) as [E|E]; cbn [negb].
    + rewrite forallb_forall. split.
      * intros H. split; [auto|]. intros i Hi Hm. rewrite men_pos in Hm by auto. cbn [sign] in Hm.
        destruct (Z_le_gt_dec (pip P1 i) 6) as [|Hg]; [auto|]. cbn [pip] in Hg. unfold on_board in Hi.
        specialize (H i). rewrite In_range in H. specialize (H ltac:(lia)). lia.
      * intros (_ & H) i Hi. apply In_range in Hi. specialize (H i). rewrite men_pos in H by (unfold on_board; lia).
        cbn [sign pip] in H. unfold on_board in H. lia.
    + split; [discriminate|]. intros (H & _). contradiction.
  - destruct (Z.eqb_spec (hit2 b) 0) as [E|E]; cbn [negb].
    + rewrite forallb_forall. split.
      * intros H. split; [auto|]. intros i Hi Hm. rewrite men_pos in Hm by auto. cbn [sign] in Hm.
        destruct (Z_le_gt_dec (pip P2 i) 6) as [|Hg]; [auto|]. cbn [pip] in Hg. unfold on_board in Hi.
        specialize (H i). rewrite In_range in H. specialize (H ltac:(lia)). lia.
      * intros (_ & H) i Hi. apply In_range in Hi. specialize (H i). rewrite men_pos in H by (unfold on_board; lia).
        cbn [sign pip] in H. unfold on_board in H. lia.
    + split; [discriminate|]. intros (H & _). contradiction.
Qed.
Lemma test1_thin b j : WF b -> 0 <= j < 6 ->
  (test1 (pts b) j = true <-> 0 < men (view b) P1 j /\ thin (view b) P1 j).
Proof.
  intros HW Hj. unfold test1, thin. rewrite andb_true_iff, Z.ltb_lt, Z.leb_le.
  rewrite men_pos by (unfold on_board; lia). cbn [sign opp pip].
  rewrite <- (zsum_range (at_pt (pts b)) (j + 1) 6) by lia.
  rewrite (zsum_ext (fun j0 => if (j + 1 <? j0 + 1) && (j0 + 1 <=? 6) then _ else 0)
                    (fun i => if (j + 1 <=? i) && (i <? 6) then at_pt (pts b) i else 0)).
  - lia.
  - intros i Hi. pose proof (at_view b P1 i Hi HW) as E. cbn [sign opp] in E.
    replace (j + 1 <? i + 1) with (j + 1 <=? i) by lia. replace (i + 1 <=? 6) with (i <? 6) by lia.
    destruct ((j + 1 <=? i) && (i <? 6)); lia.
Qed.
Lemma test2_thin b j : WF b -> 18 <= j < 24 ->
  (test2 (pts b) j = true <-> 0 < men (view b) P2 j /\ thin (view b) P2 j).
Proof.
  intros HW Hj. unfold test2, thin. rewrite andb_true_iff, Z.ltb_lt, Z.leb_le.
  rewrite men_pos by (unfold on_board; lia). cbn [sign opp pip].
  rewrite <- (zsum_range (at_pt (pts b)) 18 j) by lia.
  assert (E : zsum (fun j0 => if (24 - j <? 24 - j0) && (24 - j0 <=? 6)
     then men (view b) P1 j0 - men (view b) P2 j0 else 0) =
     - zsum (fun i => if (18 <=? i) && (i <? j) then at_pt (pts b) i else 0)).
  { assert (N : forall f, zsum (fun i => - f i) = - zsum f).
    { intros f. unfold zsum. induction (range 0 24) as [|x l IH]; cbn; lia. }
    rewrite <- N. apply zsum_ext. intros i Hi. pose proof (at_view b P2 i Hi HW) as E. cbn [sign opp] in E.
    replace (24 - j <? 24 - i) with (i <? j) by lia. replace (24 - i <=? 6) with (18 <=? i) by lia.
    rewrite andb_comm. destruct ((18 <=? i) && (i <? j)); lia. }
  rewrite E. lia.
Qed.

(** ** The single moves offered *)
Definition offers (dice : list Z) (s : side) (q : pos) (pa : pact) : Prop :=
  exists m, In (fst pa) dice /\ snd pa = act_of m /\ gen s (fst pa) q m.

Lemma dice_id dice : Forall die dice -> map u8_as_i8 dice = dice.
Proof.
  induction 1 as [|d l Hd _ IH]; cbn; [reflexivity|]. rewrite IH. f_equal.
  unfold u8_as_i8. apply wrap_i8_id. unfold die in Hd. lia.
Qed.

Lemma entry_actions_spec pr dice b s :
  WF b -> Forall die dice -> 0 < bar (view b) s ->
  exists l, entry_actions pr dice b (sign s) = Ok l /\
            forall pa, In pa l <-> offers dice s (view b) pa.
Proof.
  intros HW HD Hbar. rewrite Forall_forall in HD. pose proof (WF_len b HW) as Hl.
  unfold entry_actions. rewrite dice_id by (now apply Forall_forall).
  rewrite (mflat_ok _ (fun m => if -2 <? sign s * at_pt (pts b) (entry s m) then [(m, (-1, entry s m))] else [])).
  - cbn [bind]. eexists. split; [reflexivity|]. intros [m a]. rewrite In_dedup, In_sort, in_flat_map.
    unfold offers. cbn [fst snd]. split.
    + intros (d & Hd & Hin).
      destruct (Z.ltb_spec (-2) (sign s * at_pt (pts b) (entry s d))); [|easy].
      destruct Hin as [[= <- <-]|[]]. exists (Enter (entry s d)). split; [auto|]. split; [reflexivity|].
      apply gen_enter; auto. apply not_blocked_at; [apply entry_on_board; auto|lia].
    + intros (mv & Hm & -> & Hg). exists m. split; [auto|]. inversion Hg; subst; try lia.
      * cbn. rewrite not_blocked_at in * by (apply entry_on_board; auto).
        destruct (Z.ltb_spec (-2) (sign s * at_pt (pts b) (entry s m))); [now left|lia].
      * match goal with H : all_home _ _ |- _ => destruct H as (H & _); lia end.
      * match goal with H : all_home _ _ |- _ => destruct H as (H & _); lia end.
  - intros m Hm. specialize (HD m Hm). unfold die in HD. unfold entry_one.
    destruct s; cbn [sign entry Z.eqb Pos.eqb]; rewrite i8_ok by lia; cbn [bind]; rewrite idx_at by lia; cbn [bind]; f_equal.
    + replace (-2 <? -1 * at_pt (pts b) (24 - m)) with (at_pt (pts b) (24 - m) <? 2) by lia. reflexivity.
    + replace (1 * at_pt (pts b) (m - 1)) with (at_pt (pts b) (m - 1)) by lia. reflexivity.
Qed.

Lemma In_pure_n b s d i n pa :
  WF b -> die d -> on_board i -> n = at_pt (pts b) i ->
  (In pa (pure_n (pts b) (sign s) d (i, n)) <->
   pa = (d, (i, i + sign s * d)) /\ 0 < men (view b) s i /\ on_board (i + sign s * d)
   /\ ~ blocked (view b) s (i + sign s * d)).
Proof.
  intros HW Hd Hi ->. unfold die in Hd. unfold pure_n. rewrite men_pos by auto.
  destruct s; cbn [sign Z.eqb Pos.eqb andb].
  - replace (i + -1 * d) with (i - d) by lia.
    destruct ((at_pt (pts b) i <=? -1) && (0 <=? i - d) && (at_pt (pts b) (i - d) <=? 1)) eqn:E.
    + assert (on_board (i - d)) by (unfold on_board in *; lia).
      rewrite not_blocked_at by auto. cbn [sign In]. split.
      * intros [<-|[]]. split; [reflexivity|]. split; [lia|]. split; [auto|lia].
      * intros (-> & _). now left.
    + split; [intros []|]. intros (_ & H1 & H2 & H3). rewrite not_blocked_at in H3 by auto. cbn [sign] in H3.
      unfold on_board in H2. lia.
  - replace (i + 1 * d) with (i + d) by lia.
    destruct ((1 <=? at_pt (pts b) i) && (i + d <=? 23) && (-1 <=? at_pt (pts b) (i + d))) eqn:E.
    + assert (on_board (i + d)) by (unfold on_board in *; lia).
      rewrite not_blocked_at by auto. cbn [sign In]. split.
      * intros [<-|[]]. split; [reflexivity|]. split; [lia|]. split; [auto|lia].
      * intros (-> & _). now left.
    + split; [intros []|]. intros (_ & H1 & H2 & H3). rewrite not_blocked_at in H3 by auto. cbn [sign] in H3.
      unfold on_board in H2. lia.
Qed.

Definition pure_c (s : side) := match s with P1 => pure_c1 | P2 => pure_c2 end.
Lemma In_pure_c b s d pa :
  WF b -> die d -> all_home (view b) s ->
  (In pa (pure_c s (pts b) d) <-> exists i, pa = (d, (i, -1)) /\ gen s d (view b) (Off i)).
Proof.
  intros HW Hd HA. unfold die in Hd.
  assert (HP := fun i H1 H2 => proj2 HA i H1 H2).
  destruct s; cbn [pure_c]; [unfold pure_c1|unfold pure_c2]; rewrite in_app_iff.
  - split.
    + intros [H|H].
      * destruct (Z.ltb_spec (at_pt (pts b) (d - 1)) 0); [|easy]. destruct H as [<-|[]].
        exists (d - 1). split; [auto|]. apply gen_off_exact; auto; [unfold on_board; lia| |cbn [pip]; lia].
        rewrite men_pos by (unfold on_board; lia). cbn [sign]; lia.
      * destruct (find _ _) as [j|] eqn:E; [|easy]. destruct H as [<-|[]].
        apply find_down in E. destruct E as (Hj & Ht & Hn). apply test1_thin in Ht; [|auto|lia].
        exists j. split; [auto|]. apply gen_off_thin; try tauto; [unfold on_board; lia|cbn [visits pip]; lia|].
        intros k Hk Hm Hp Hv Hth. cbn [pip visits] in *.
        assert (F : test1 (pts b) k = true) by (apply test1_thin; [auto|lia|auto]).
        rewrite Hn in F by lia. discriminate.
    + intros (i & -> & Hg). inversion Hg as [| |i' _ Hi Hm Hp|i' _ Hi Hm Hv Ht Hn]; subst.
      * left. cbn [pip]. rewrite men_pos in Hm by auto. cbn [sign] in Hm.
        replace (i + 1 - 1) with i by lia. destruct (Z.ltb_spec (at_pt (pts b) i) 0); [now left|lia].
      * cbn [visits pip] in Hv. right. replace (find (test1 (pts b)) (rev (range 0 (d - 1)))) with (Some i); [now left|].
        symmetry. apply find_down. split; [unfold on_board in Hi; lia|]. split.
        -- apply test1_thin; auto. unfold on_board in Hi; lia.
        -- intros k Hk. destruct (test1 (pts b) k) eqn:F; [|reflexivity].
           unfold on_board in Hi. apply test1_thin in F; [|auto|lia]. exfalso. apply (Hn k); try tauto.
           ++ unfold on_board; lia.
           ++ cbn [pip]; lia.
           ++ cbn [pip visits]; lia.
  - split.
    + intros [H|H].
      * destruct (Z.ltb_spec 0 (at_pt (pts b) (24 - d))); [|easy]. destruct H as [<-|[]].
        exists (24 - d). split; [auto|]. apply gen_off_exact; auto; [unfold on_board; lia| |cbn [pip]; lia].
        rewrite men_pos by (unfold on_board; lia). cbn [sign]; lia.
      * destruct (find _ _) as [j|] eqn:E; [|easy]. destruct H as [<-|[]].
        apply find_up in E. destruct E as (Hj & Ht & Hn). apply test2_thin in Ht; [|auto|lia].
        exists j. split; [auto|]. apply gen_off_thin; try tauto; [unfold on_board; lia|cbn [visits pip]; lia|].
        intros k Hk Hm Hp Hv Hth. cbn [pip visits] in *.
        assert (F : test2 (pts b) k = true) by (apply test2_thin; [auto|lia|auto]).
        rewrite Hn in F by lia. discriminate.
    + intros (i & -> & Hg). inversion Hg as [| |i' _ Hi Hm Hp|i' _ Hi Hm Hv Ht Hn]; subst.
      * left. cbn [pip]. rewrite men_pos in Hm by auto. cbn [sign] in Hm.
        replace (24 - (24 - i)) with i by lia. destruct (Z.ltb_spec 0 (at_pt (pts b) i)); [now left|lia].
      * cbn [visits pip] in Hv. right. replace (find (test2 (pts b)) (range (24 - d) 24)) with (Some i); [now left|].
        symmetry. apply find_up. split; [unfold on_board in Hi; lia|]. split.
        -- apply test2_thin; auto. unfold on_board in Hi; lia.
        -- intros k Hk. destruct (test2 (pts b) k) eqn:F; [|reflexivity].
           unfold on_board in Hi. apply test2_thin in F; [|auto|lia]. exfalso. apply (Hn k); try tauto.
           ++ unfold on_board; lia.
           ++ cbn [pip]; lia.
           ++ cbn [pip visits]; lia.
Qed.

Lemma normal_actions_spec pr dice b s :
  WF b -> Forall die dice -> bar (view b) s = 0 ->
  exists l, normal_actions pr dice b (sign s) = Ok l /\
            forall pa, In pa l <-> offers dice s (view b) pa.
Proof.
  intros HW HD Hbar. pose proof HD as HD'. rewrite Forall_forall in HD'. pose proof (WF_bounded b HW) as HB.
  pose proof (WF_len b HW) as Hl.
  unfold normal_actions. rewrite dice_id by auto.
  assert (HC : exists cs, (if (sign s =? -1) && is_collectible b (sign s) then mflat (collect_p1 pr (pts b)) dice
     else if (sign s =? 1) && is_collectible b (sign s) then mflat (collect_p2 pr (pts b)) dice
     else Ok []) = Ok cs /\
     forall pa, In pa cs <-> exists i, In (fst pa) dice /\ snd pa = act_of (Off i) /\ gen s (fst pa) (view b) (Off i)).
  { destruct (is_collectible b (sign s)) eqn:E.
    - apply collectible_home in E. exists (flat_map (pure_c s (pts b)) dice). split.
      + destruct s; cbn [sign Z.eqb Pos.eqb andb pure_c]; apply mflat_ok; intros m Hm;
          [apply collect_p1_ok|apply collect_p2_ok]; auto.
      + intros [d a]. rewrite in_flat_map. cbn [fst snd act_of]. split.
        * intros (m & Hm & Hin). apply In_pure_c in Hin; auto. destruct Hin as (i & [= -> ->] & Hg). eauto.
        * intros (i & Hd & -> & Hg). exists d. split; [auto|]. apply In_pure_c; eauto.
    - exists []. split; [destruct s; reflexivity|]. intros [d a]. split; [intros []|].
      intros (i & _ & _ & Hg). assert (HA : all_home (view b) s) by (inversion Hg; auto).
      apply collectible_home in HA. congruence. }
  destruct HC as (cs & -> & HC). cbn [bind].
  rewrite (mflat_ok _ (fun m => flat_map (pure_n (pts b) (sign s) m) (enum (pts b)))).
  - cbn [bind]. eexists. split; [reflexivity|]. intros [d a].
    rewrite In_dedup, In_sort, in_app_iff, HC, in_flat_map. unfold offers. cbn [fst snd]. split.
    + intros [(i & H)|(m & Hm & Hin)]; [eauto|].
      apply in_flat_map in Hin. destruct Hin as ([i n] & Hi & Hin). apply In_enum in Hi. destruct Hi as (Hi & Hn).
      rewrite Hl in Hi. apply In_pure_n in Hin; auto; [|unfold on_board; lia].
      destruct Hin as ([= -> ->] & H1 & H2 & H3). exists (Move i (i + sign s * m)). split; [auto|]. split; [reflexivity|].
      apply gen_move; auto. unfold on_board; lia.
    + intros (m & Hm & -> & Hg). inversion Hg as [Hb|i Hb Hi Hmn Ho Hnb|i|i]; subst; try lia; try (left; eauto; fail).
      right. exists d. split; [auto|]. apply in_flat_map. exists (i, at_pt (pts b) i). split.
      * apply In_enum. rewrite Hl. unfold on_board in Hi. split; [lia|reflexivity].
      * apply In_pure_n; auto.
  - intros m Hm. apply mflat_ok. intros [i n] Hi. apply In_enum in Hi. rewrite Hl in Hi.
    apply normal_one_ok; auto. unfold on_board; lia.
Qed.

(** ** [gen] lies between the rules and the loose rules *)
Lemma legal_gen s d q m : (forall x i, 0 <= men q x i) -> die d -> legal s d q m -> gen s d q m.
Proof.
  intros Hn Hd H. destruct H as [Hb Hnb|i|i|i HA Hi Hm Hp Hmax].
  - now apply gen_enter.
  - now apply gen_move.
  - now apply gen_off_exact.
  - apply gen_off_thin; auto.
    + destruct s; cbn [visits]; lia.
    + unfold thin. apply zsum_nonneg. intros j Hj.
      destruct (Z.ltb_spec (pip s i) (pip s j)); cbn [andb]; [|lia].
      destruct (pip s j <=? 6); [|lia].
      pose proof (Hn (opp s) j). pose proof (Hn s j). destruct (Z.eq_dec (men q s j) 0); [lia|].
      specialize (Hmax j Hj ltac:(lia)). lia.
    + intros j Hj Hmj Hlt _ _. specialize (Hmax j Hj Hmj). lia.
Qed.
Lemma gen_loose s d q m : gen s d q m -> loose s d q m.
Proof.
  intros H. destruct H as [| | |i HA Hi Hm Hv Ht Hn].
  - apply loose_legal. now apply legal_enter.
  - apply loose_legal. now apply legal_move.
  - apply loose_legal. now apply legal_off_exact.
  - apply loose_off; auto. destruct s; cbn [visits] in Hv; lia.
Qed.
Lemma gen_legal_clear s d q m :
  (forall x i, 0 <= men q x i) -> clear_home q s -> gen s d q m -> legal s d q m.
Proof.
  intros Hnn HC H. destruct H as [| | |i HA Hi Hm Hv Ht Hn].
  - now apply legal_enter.
  - now apply legal_move.
  - now apply legal_off_exact.
  - assert (Hmax : forall j, on_board j -> 0 < men q s j -> pip s j <= pip s i).
    { intros j Hj Hmj. destruct (Z_le_gt_dec (pip s j) (pip s i)); [auto|exfalso].
      unfold thin in Ht.
      set (f := fun j => if (pip s i <? pip s j) && (pip s j <=? 6) then men q (opp s) j - men q s j else 0) in *.
      assert (Hf : forall k, on_board k -> 0 <= - f k).
      { intros k Hk. unfold f. destruct (Z.ltb_spec (pip s i) (pip s k)); cbn [andb]; [|lia].
        destruct (Z.leb_spec (pip s k) 6); [|lia]. rewrite HC by auto. pose proof (Hnn s k). lia. }
      assert (N : zsum (fun k => - f k) = - zsum f).
      { unfold zsum. induction (range 0 24) as [|x l IH]; cbn; lia. }
      pose proof (zsum_zero (fun k => - f k) Hf ltac:(lia) j Hj) as Z0. cbn beta in Z0.
      unfold f in Z0. destruct (Z.ltb_spec (pip s i) (pip s j)); cbn [andb] in Z0; [|lia].
      pose proof (proj2 HA j Hj Hmj). destruct (Z.leb_spec (pip s j) 6); [|lia]. rewrite HC in Z0 by auto. lia. }
    assert (pip s i = d \/ pip s i < d) as [E|E] by (destruct s; cbn [visits] in Hv; lia).
    + now apply legal_off_exact.
    + now apply legal_off_over.
Qed.

Lemma thin_eq a b s i : pos_eq a b -> thin a s i -> thin b s i.
Proof.
  intros (H1 & _) H. unfold thin in *. erewrite zsum_ext; [exact H|]. intros j _. cbn beta. now rewrite !H1.
Qed.
Lemma gen_eq a b s d m : pos_eq a b -> gen s d a m -> gen s d b m.
Proof.
  intros E H. pose proof E as (H1 & H2 & H3).
  assert (NB : forall i, ~ blocked a s i -> ~ blocked b s i).
  { intros i Hn Hb. apply Hn. eapply blocked_eq; [apply pos_eq_sym, E|auto]. }
  destruct H as [Hb Hnb|i Hb Hi Hm Ho Hnb|i HA Hi Hm Hp|i HA Hi Hm Hv Ht Hn].
  - apply gen_enter; auto. rewrite <- H2; auto.
  - apply gen_move; auto; [rewrite <- H2|rewrite <- H1]; auto.
  - apply gen_off_exact; auto; [eapply all_home_eq; eauto|rewrite <- H1; auto].
  - apply gen_off_thin; auto; [eapply all_home_eq; eauto|rewrite <- H1; auto|eapply thin_eq; eauto|].
    intros j Hj Hmj Hlt Hvj Htj. rewrite <- H1 in Hmj. apply (Hn j); auto.
    eapply thin_eq; [apply pos_eq_sym, E|auto].
Qed.
Lemma gstuck_eq a b s dice : pos_eq a b -> gstuck s dice a -> gstuck s dice b.
Proof. intros E H d m Hd HL. apply (H d m Hd). eapply gen_eq; [apply pos_eq_sym, E|auto]. Qed.

(** ** Plays respect equality of positions and permutations of dice *)
Lemma play_eq (L : Z -> pos -> mv -> Prop) (stop : list Z -> pos -> Prop) s dice a b ms :
  (forall d x y m, pos_eq x y -> L d x m -> L d y m) ->
  (forall dice x y, pos_eq x y -> stop dice x -> stop dice y) ->
  pos_eq a b -> play L stop s dice a ms -> play L stop s dice b ms.
Proof.
  intros HL HS E H. revert b E. induction H as [dice q Hs|d1 d d2 q m ms Hm _ IH]; intros b E.
  - apply play_stop. eauto.
  - apply play_step; [eauto|]. apply IH. now apply effect_eq.
Qed.
Lemma play_perm (L : Z -> pos -> mv -> Prop) (stop : list Z -> pos -> Prop) s dice dice' q ms :
  (forall d1 d2 x, Permutation d1 d2 -> stop d1 x -> stop d2 x) ->
  Permutation dice dice' -> play L stop s dice q ms -> play L stop s dice' q ms.
Proof.
  intros HS P H. revert dice' P. induction H as [dice q Hs|d1 d d2 q m ms Hm _ IH]; intros dice' P.
  - apply play_stop. eauto.
  - assert (In d dice') as Hin.
    { eapply Permutation_in; [exact P|]. apply in_app_iff. right. now left. }
    apply in_split in Hin. destruct Hin as (e1 & e2 & ->). apply play_step; [auto|]. apply IH.
    apply Permutation_app_inv in P. exact P.
Qed.
Lemma gstuck_perm s d1 d2 q : Permutation d1 d2 -> gstuck s d1 q -> gstuck s d2 q.
Proof. intros P H d m Hd. apply H. eapply Permutation_in; [apply Permutation_sym, P|auto]. Qed.
Lemma stuck_perm s d1 d2 q : Permutation d1 d2 -> stuck s d1 q -> stuck s d2 q.
Proof. intros P H d m Hd. apply H. eapply Permutation_in; [apply Permutation_sym, P|auto]. Qed.

Lemma play_first (L : Z -> pos -> mv -> Prop) (stop : list Z -> pos -> Prop) s dice q m ms :
  play L stop s dice q (m :: ms) -> exists d, In d dice /\ L d q m.
Proof.
  intros H. inversion H as [|d1 d d2 q' m' ms' Hm _]; subst. exists d. split; [|auto].
  apply in_app_iff. right. now left.
Qed.

Definition gplay (s : side) := play (gen s) (gstuck s) s.
Lemma gplay_eq s dice a b ms : pos_eq a b -> gplay s dice a ms -> gplay s dice b ms.
Proof. intros E. apply play_eq; auto; intros; [eapply gen_eq|eapply gstuck_eq]; eauto. Qed.

(** ** Action trees *)
Definition extract_list_from (cur : actions) (l : list anode) : list actions :=
  flat_map (fun n => extract_helper n cur) l.
Lemma extract_helper_node v ch cur :
  extract_helper (ANode v ch) cur =
  match ch with [] => [cur ++ [v]] | _ => extract_list_from (cur ++ [v]) ch end.
Proof.
  destruct ch as [|c ch]; [reflexivity|]. cbn [extract_helper extract_list_from flat_map]. f_equal.
Qed.

(** Induction principle for trees *)
Section AnodeInd.
  Variable P : anode -> Prop.
  Hypothesis Hnode : forall v ch, Forall P ch -> P (ANode v ch).
  Fixpoint anode_ind' (n : anode) : P n :=
    match n with
    | ANode v ch => Hnode v ch ((fix go l : Forall P l :=
        match l with [] => Forall_nil P | c :: l' => Forall_cons c (anode_ind' c) (go l') end) ch)
    end.
End AnodeInd.

Lemma extract_helper_cur n : forall cur, extract_helper n cur = map (app cur) (extract_helper n []).
Proof.
  induction n as [v ch IH] using anode_ind'. intros cur. rewrite !extract_helper_node.
  destruct ch as [|c ch]; [reflexivity|]. cbn [app].
  assert (E : forall cur', extract_list_from cur' (c :: ch) = map (app cur') (extract_list_from [] (c :: ch))).
  { intros cur'. unfold extract_list_from. clear - IH. induction IH as [|n l Hn _ IHl]; [reflexivity|].
    cbn [flat_map]. rewrite map_app. f_equal; [apply Hn|exact IHl]. }
  rewrite (E (cur ++ [v])), (E [v]), map_map. apply map_ext. intros a. now rewrite <- app_assoc.
Qed.
Lemma In_extract_node v ch seq :
  In seq (extract_sequences_node (ANode v ch)) <->
  (ch = [] /\ seq = [v]) \/ (ch <> [] /\ exists rest, seq = v :: rest /\ In rest (extract_sequences_list ch)).
Proof.
  unfold extract_sequences_node. rewrite extract_helper_node. destruct ch as [|c ch].
  - cbn. intuition congruence.
  - cbn [app]. unfold extract_list_from, extract_sequences_list. rewrite in_flat_map. split.
    + intros (n & Hn & Hin). right. split; [discriminate|]. rewrite extract_helper_cur in Hin.
      apply in_map_iff in Hin. destruct Hin as (rest & <- & Hr). exists rest. split; [reflexivity|].
      apply in_flat_map. exists n. auto.
    + intros [(H & _)|(_ & rest & -> & Hr)]; [discriminate|]. apply in_flat_map in Hr.
      destruct Hr as (n & Hn & Hin). exists n. split; [auto|]. rewrite extract_helper_cur.
      apply in_map_iff. exists rest. auto.
Qed.
Lemma extract_node_nonempty n : extract_sequences_node n <> [].
Proof.
  induction n as [v ch IH] using anode_ind'. unfold extract_sequences_node. rewrite extract_helper_node.
  destruct IH as [|c ch Hc _]; [discriminate|]. cbn [extract_list_from flat_map].
  rewrite extract_helper_cur. unfold extract_sequences_node in Hc.
  destruct (extract_helper c []); [contradiction|discriminate].
Qed.

Lemma remove_first_ok x l : In x l ->
  exists l1 l2, l = l1 ++ x :: l2 /\ remove_first x l = Ok (l1 ++ l2).
Proof.
  induction l as [|y l IH]; intros H; [easy|]. cbn [remove_first]. destruct (Z.eqb_spec y x) as [->|Hne].
  - exists [], l. split; reflexivity.
  - destruct H as [->|H]; [contradiction|]. destruct (IH H) as (l1 & l2 & -> & ->).
    exists (y :: l1), l2. split; reflexivity.
Qed.

Lemma gen_playable s d q m : die d -> gen s d q m -> playable q s m.
Proof. intros Hd H. apply gen_loose in H. eapply loose_playable; eauto. Qed.

Lemma get_pieces_hit_bar b s : get_pieces_hit b (sign s) = bar (view b) s.
Proof. now destruct s. Qed.

Definition first_actions (pr : profile) (dice : list Z) (b : board) (p : Z) : res (list pact) :=
  if 0 <? get_pieces_hit b p then entry_actions pr dice b p else normal_actions pr dice b p.
Lemma first_actions_spec pr dice b s :
  WF b -> Forall die dice ->
  exists l, first_actions pr dice b (sign s) = Ok l /\ forall pa, In pa l <-> offers dice s (view b) pa.
Proof.
  intros HW HD. unfold first_actions. rewrite get_pieces_hit_bar.
  destruct (Z.ltb_spec 0 (bar (view b) s)).
  - now apply entry_actions_spec.
  - apply normal_actions_spec; auto. pose proof (proj1 (proj2 (WF_nonneg b s HW))). lia.
Qed.

Lemma Forall_remove {A} (P : A -> Prop) l1 x l2 : Forall P (l1 ++ x :: l2) -> Forall P (l1 ++ l2) /\ P x.
Proof.
  rewrite !Forall_app. intros (H1 & H2). inversion H2; subst. auto.
Qed.

Lemma act_of_inj q s q' s' m m' : playable q s m -> playable q' s' m' -> act_of m = act_of m' -> m = m'.
Proof.
  intros H1 H2 E. rewrite <- (mv_of_playable _ _ _ H1), <- (mv_of_playable _ _ _ H2). now rewrite E.
Qed.

(** The trees for dice [dice] contain exactly the non-empty maximal [gen]-plays. *)
Theorem action_trees_spec pr s fuel : forall dice b,
  WF b -> Forall die dice -> (length dice < fuel)%nat ->
  exists ts, action_trees pr fuel dice b (sign s) = Ok ts
    /\ (ts = [] <-> gstuck s dice (view b))
    /\ (forall seq, In seq (extract_sequences_list ts) <->
          exists ms, ms <> [] /\ seq = map act_of ms /\ gplay s dice (view b) ms).
Proof.
  induction fuel as [|fuel IH]; intros dice b HW HD Hf; [lia|].
  cbn [action_trees].
  change (if 0 <? get_pieces_hit b (sign s) then entry_actions pr dice b (sign s) else normal_actions pr dice b (sign s))
    with (first_actions pr dice b (sign s)).
  destruct (first_actions_spec pr dice b s HW HD) as (acts & -> & Hacts). cbn [bind].
  set (rec := fun mv st' => action_trees pr fuel mv st' (sign s)).
  (* one subtree *)
  assert (HN : forall pa, In pa acts -> exists ch m l1 l2,
     dice = l1 ++ fst pa :: l2 /\ snd pa = act_of m /\ gen s (fst pa) (view b) m /\
     (let (d, a) := pa in
          st' <- get_next_state pr b [a] (sign s) ;;
          moves' <- remove_first (i8_as_u8 d) dice ;;
          ch <- rec moves' st' ;;
          Ok (ANode a ch)) = Ok (ANode (snd pa) ch) /\
     (ch = [] <-> gstuck s (l1 ++ l2) (effect (view b) s m)) /\
     (forall seq, In seq (extract_sequences_list ch) <->
        exists ms, ms <> [] /\ seq = map act_of ms /\ gplay s (l1 ++ l2) (effect (view b) s m) ms)).
  { intros [d a] Hin. apply Hacts in Hin. destruct Hin as (m & Hd & Ha & Hg). cbn [fst snd] in *. subst a.
    assert (Hdie : die d) by (rewrite Forall_forall in HD; auto).
    destruct (next_action_WF pr b s m HW (gen_playable _ _ _ _ Hdie Hg)) as (b' & E & HW' & Hv).
    destruct (remove_first_ok d dice Hd) as (l1 & l2 & Hdice & Hr).
    subst dice. destruct (Forall_remove _ _ _ _ HD) as (HD' & _).
    destruct (IH (l1 ++ l2) b' HW' HD') as (ch & Ech & Hnil & Hseq).
    { rewrite app_length in *. cbn [length] in Hf. lia. }
    exists ch, m, l1, l2. split; [auto|]. split; [auto|]. split; [auto|].
    split; [|split].
    - cbn [get_next_state mfold]. rewrite E. cbn [bind].
      replace (i8_as_u8 d) with d by (symmetry; apply wrap_u8_id; unfold die in Hdie; lia).
      rewrite Hr. cbn [bind]. unfold rec. rewrite Ech. reflexivity.
    - rewrite Hnil. split; apply gstuck_eq; [auto|now apply pos_eq_sym].
    - intros seq. rewrite Hseq. split; intros (ms & H1 & H2 & H3); exists ms; (split; [auto|]; split; [auto|]);
        eapply gplay_eq; try exact H3; [auto|now apply pos_eq_sym]. }
  destruct (mmap_is_ok (fun pa : pact => let (d, a) := pa in
          st' <- get_next_state pr b [a] (sign s) ;;
          moves' <- remove_first (i8_as_u8 d) dice ;;
          ch <- rec moves' st' ;;
          Ok (ANode a ch)) acts) as (ts & Ets).
  { intros pa Hpa. destruct (HN pa Hpa) as (ch & m & l1 & l2 & _ & _ & _ & E & _). rewrite E. eexists; eauto. }
  exists ts. split; [exact Ets|].
  pose proof (mmap_length _ _ _ Ets) as Hlen. apply mmap_Forall2 in Ets.
  assert (Hnil : ts = [] <-> gstuck s dice (view b)).
  { split.
    - intros ->. cbn in Hlen. destruct acts; [|discriminate]. intros d m Hd Hg.
      apply (Hacts (d, act_of m)). exists m. auto.
    - intros Hs. destruct acts as [|[d a] acts]; [destruct ts; [reflexivity|discriminate]|].
      exfalso. destruct (proj1 (Hacts (d, a)) (or_introl eq_refl)) as (m & Hd & _ & Hg). exact (Hs d m Hd Hg). }
  split; [exact Hnil|].
  intros seq. unfold extract_sequences_list. rewrite in_flat_map. split.
  - intros (n & Hn & Hin).
    assert (exists pa, In pa acts /\ (let (d, a) := pa in
          st' <- get_next_state pr b [a] (sign s) ;;
          moves' <- remove_first (i8_as_u8 d) dice ;;
          ch <- rec moves' st' ;;
          Ok (ANode a ch)) = Ok n) as (pa & Hpa & E).
    { clear - Ets Hn. induction Ets as [|x y l l' Hxy _ IHl]; [easy|].
      destruct Hn as [->|Hn]; [exists x; split; [now left|auto]|].
      destruct (IHl Hn) as (pa & ? & ?). exists pa. split; [now right|auto]. }
    destruct (HN pa Hpa) as (ch & m & l1 & l2 & Hdice & Ha & Hg & E' & Hch & Hseq).
    rewrite E' in E. injection E as <-. apply In_extract_node in Hin.
    rewrite Ha in Hin. rewrite Hdice. destruct Hin as [(Hc & ->)|(Hc & rest & -> & Hr)].
    + exists [m]. split; [discriminate|]. split; [reflexivity|]. apply play_step; [auto|].
      apply play_stop. now apply Hch.
    + apply Hseq in Hr. destruct Hr as (ms & _ & -> & Hp). exists (m :: ms).
      split; [discriminate|]. split; [reflexivity|]. now apply play_step.
  - intros (ms & Hne & -> & Hp). inversion Hp as [|d1 d d2 q m ms' Hg Hp']; subst; [contradiction|].
    assert (Hpa : In (d, act_of m) acts).
    { apply Hacts. exists m. split; [apply in_app_iff; right; now left|]. auto. }
    destruct (HN _ Hpa) as (ch & m' & l1 & l2 & Hdice & Ha & Hg' & E & Hch & Hseq).
    cbn [fst snd] in *.
    assert (Hdie : die d).
    { rewrite Forall_forall in HD. apply HD. apply in_app_iff; right; now left. }
    assert (m' = m) as ->.
    { symmetry. eapply act_of_inj; [eapply gen_playable|eapply gen_playable|]; eauto. }
    exists (ANode (act_of m) ch). split.
    { clear - Ets Hpa E. induction Ets as [|x y l l' Hxy _ IHl]; [easy|].
      destruct Hpa as [->|Hpa]; [|right; auto]. left. rewrite E in Hxy. now injection Hxy. }
    apply In_extract_node. cbn [map].
    assert (Hperm : Permutation (d1 ++ d2) (l1 ++ l2)).
    { apply (Permutation_app_inv _ _ _ _ d). rewrite Hdice. apply Permutation_refl. }
    assert (Hp2 : gplay s (l1 ++ l2) (effect (view b) s m) ms').
    { eapply play_perm; [|exact Hperm|exact Hp']. intros; eapply gstuck_perm; eauto. }
    destruct ms' as [|m2 ms'].
    + left. split; [|reflexivity]. apply Hch. inversion Hp2; auto.
    + right. split.
      * intros Hc. apply Hch in Hc. destruct (play_first _ _ _ _ _ _ _ Hp2) as (e & He & Hg3).
        exact (Hc e m2 He Hg3).
      * exists (map act_of (m2 :: ms')). split; [reflexivity|]. apply Hseq. exists (m2 :: ms').
        split; [discriminate|]. auto.
Qed.
