(** * ShowApi: proofs re-exported by Prop_Show.v. *)
From Coq Require Import Permutation Arith.
From Verif Require Import BaseFacts BgSpec BgStep BgTurn BgReach GameFacts ShowSpec JsonProof JsonApi VersusApi VersusStuck VersusApi2.
Require Import ZifyBool ZifyNat.

(** ** texts *)
Lemma split_at (c : ascii) a b x y : ~ In c a -> ~ In c b -> a ++ c :: x = b ++ c :: y -> a = b /\ x = y.
Proof.
  revert b. induction a as [|k a IH]; intros [|j b] Ha Hb E; cbn [app] in E.
  - injection E as E. auto.
  - injection E as -> E. exfalso. apply Hb. left. reflexivity.
  - injection E as <- E. exfalso. apply Ha. left. reflexivity.
  - injection E as <- E. destruct (IH b) as [-> ->]; [intros H; apply Ha; right; exact H|intros H; apply Hb; right; exact H|exact E|auto].
Qed.
Lemma join_cons sep l ls : ls <> [] -> join sep (l :: ls) = l ++ sep :: join sep ls.
Proof. destruct ls; [congruence|reflexivity]. Qed.
Lemma join_app sep a b : a <> [] -> b <> [] -> join sep (a ++ b) = join sep a ++ sep :: join sep b.
Proof.
  intros Ha Hb. induction a as [|l a IH]; [congruence|]. destruct a as [|l2 a]; [apply join_cons; exact Hb|]. change ((l :: l2 :: a) ++ b) with (l :: ((l2 :: a) ++ b)).
  rewrite (join_cons sep l ((l2 :: a) ++ b)), (join_cons sep l (l2 :: a)), IH by discriminate. rewrite <- app_assoc. reflexivity.
Qed.
Lemma join_inj sep a b : Forall (fun l => ~ In sep l) a -> Forall (fun l => ~ In sep l) b -> a <> [] -> b <> [] -> join sep a = join sep b -> a = b.
Proof.
  intros Ha. revert b. induction Ha as [|l a Hl Ha IH]; intros b Hb Na Nb E; [congruence|]. destruct b as [|m b]; [congruence|]. inversion Hb as [|? ? Hm Hb']; subst.
  destruct a as [|l2 a], b as [|m2 b].
  - cbn in E. congruence.
  - exfalso. rewrite (join_cons sep m) in E by discriminate. cbn [join] in E. subst l. apply Hl. apply in_or_app. right. left. reflexivity.
  - exfalso. rewrite (join_cons sep l) in E by discriminate. cbn [join] in E. subst m. apply Hm. apply in_or_app. right. left. reflexivity.
  - rewrite !join_cons in E by discriminate. destruct (split_at sep _ _ _ _ Hl Hm E) as [-> E2]. f_equal. apply IH; [exact Hb'|discriminate|discriminate|exact E2].
Qed.
(** characters of numbers *)
Definition numchar (c : ascii) : Prop := 45 <= code c <= 57.
Lemma digit_code d : 0 <= d <= 9 -> code (chr (48 + d)) = 48 + d.
Proof. intros H. assert (d = 0 \/ d = 1 \/ d = 2 \/ d = 3 \/ d = 4 \/ d = 5 \/ d = 6 \/ d = 7 \/ d = 8 \/ d = 9) as Hc by lia. repeat (destruct Hc as [->|Hc]; [reflexivity|]). rewrite Hc. reflexivity. Qed.
Lemma digits_chars z : Forall numchar (digits 20 z).
Proof.
  rewrite digits_digs. apply Forall_forall. intros c Hc. apply in_map_iff in Hc. destruct Hc as (d & <- & Hd). pose proof (digs_range 20 z) as H. rewrite Forall_forall in H. specialize (H d Hd).
  unfold numchar. rewrite digit_code by exact H. lia.
Qed.
Lemma int_chars z : Forall numchar (print_int z).
Proof. unfold print_int. destruct (z <? 0); [|apply digits_chars]. constructor; [unfold numchar; cbn; lia|apply digits_chars]. Qed.
Lemma int_free c z : ~ numchar c -> ~ In c (print_int z).
Proof. intros H Hin. pose proof (int_chars z) as HF. rewrite Forall_forall in HF. exact (H (HF c Hin)). Qed.
Definition is_i64 z := - 2 ^ 63 <= z < 2 ^ 64.
Lemma int_inj z w : is_i64 z -> is_i64 w -> print_int z = print_int w -> z = w.
Proof. intros Hz Hw E. assert (H : JInt z = JInt w) by (apply C66_injective_lemma; [constructor; exact Hz|constructor; exact Hw|cbn; lia|cbn; lia|exact E]). congruence. Qed.
Lemma NL_free z : ~ In NL (print_int z).
Proof. apply int_free. unfold numchar. cbn. lia. Qed.
Lemma TAB_free z : ~ In TAB (print_int z).
Proof. apply int_free. unfold numchar. cbn. lia. Qed.

(** ** the board of Backgammon *)
Lemma cell_ok pr k p : 1 <= k <= 6 -> -128 < p <= 127 -> show_cell pr k p = Ok (checker p k).
Proof.
  intros Hk Hp. unfold show_cell. rewrite i8_ok by lia. cbn [bind]. unfold checker.
  destruct (Z.eqb_spec k 6) as [->|H6]; cbn [andb].
  - destruct (Z.leb_spec 6 (Z.abs p)).
    + replace (6 <=? Z.min 5 (Z.abs p)) with false by lia. reflexivity.
    + replace (6 <=? Z.min 5 (Z.abs p)) with false by lia. reflexivity.
  - replace (k <=? Z.min 5 (Z.abs p)) with (k <=? Z.abs p) by lia. destruct (k <=? Z.abs p); reflexivity.
Qed.
Opaque checker print_int.
Lemma C69_picture_lemma : forall pr s, drawable s -> bg_pretty pr s = Ok (join NL (bg_lines s)).
Proof.
  intros pr [b rl p sec i] [(HL & Hb & Hu) (Hn & Hr)]. cbn [bgboard roll player second bgid] in *. destruct b as [ps h1 h2 c1 c2]. cbn [pts hit1 hit2 col1 col2] in *.
  assert (HP : forall j x, nth_error ps j = Some x -> -128 < x <= 127).
  { intros j x Hx. apply nth_error_In in Hx. rewrite Forall_forall in Hb, Hn. specialize (Hb x Hx). specialize (Hn x Hx). unfold is_i8 in Hb. lia. }
  clear Hb Hn Hu Hr.
  do 24 (destruct ps as [|? ps]; [discriminate HL|]). destruct ps; [|discriminate HL].
  unfold bg_pretty. cbn [bgboard roll player pts hit1 hit2 col1 col2]. change (Z.of_nat (length _)) with 24. change (24 / 2) with 12.
  change (range 0 12) with [0; 1; 2; 3; 4; 5; 6; 7; 8; 9; 10; 11]. change (range 12 24) with [12; 13; 14; 15; 16; 17; 18; 19; 20; 21; 22; 23]. change (Z.to_nat 12) with 12%nat.
  cbn [skipn]. change (rev [0; 1; 2; 3; 4; 5; 6; 7; 8; 9; 10; 11]) with [11; 10; 9; 8; 7; 6; 5; 4; 3; 2; 1; 0].
  pose proof (HP 0%nat _ eq_refl) as Q0; pose proof (HP 1%nat _ eq_refl) as Q1; pose proof (HP 2%nat _ eq_refl) as Q2; pose proof (HP 3%nat _ eq_refl) as Q3.
  pose proof (HP 4%nat _ eq_refl) as Q4; pose proof (HP 5%nat _ eq_refl) as Q5; pose proof (HP 6%nat _ eq_refl) as Q6; pose proof (HP 7%nat _ eq_refl) as Q7.
  pose proof (HP 8%nat _ eq_refl) as Q8; pose proof (HP 9%nat _ eq_refl) as Q9; pose proof (HP 10%nat _ eq_refl) as Q10; pose proof (HP 11%nat _ eq_refl) as Q11.
  pose proof (HP 12%nat _ eq_refl) as Q12; pose proof (HP 13%nat _ eq_refl) as Q13; pose proof (HP 14%nat _ eq_refl) as Q14; pose proof (HP 15%nat _ eq_refl) as Q15.
  pose proof (HP 16%nat _ eq_refl) as Q16; pose proof (HP 17%nat _ eq_refl) as Q17; pose proof (HP 18%nat _ eq_refl) as Q18; pose proof (HP 19%nat _ eq_refl) as Q19.
  pose proof (HP 20%nat _ eq_refl) as Q20; pose proof (HP 21%nat _ eq_refl) as Q21; pose proof (HP 22%nat _ eq_refl) as Q22; pose proof (HP 23%nat _ eq_refl) as Q23. clear HP HL.
  match goal with |- context [mmap (fun i => mmap (fun pos => v <- idx ?l pos ;; show_cell pr i v) ?q) _] =>
    rewrite (mmap_ok _ (fun k => map (fun j => checker (nth (Z.to_nat j) l 0) k) q)) end.
  2: { intros k Hk. apply mmap_ok. intros j Hj. cbn [In] in Hk, Hj.
       assert (H1 : 1 <= k <= 6) by (clear - Hk; lia).
       repeat (destruct Hj as [<-|Hj]; [unfold idx; cbn [Z.ltb Z.compare nth_error Z.to_nat Pos.to_nat Pos.iter_op Nat.add bind nth]; cbn; apply cell_ok; assumption|]). destruct Hj. }
  cbn [bind]. change (idx (map ?f [1; 2; 3; 4; 5; 6]) 0) with (Ok (f 1)). cbn [bind].
  rewrite (mmap_ok _ (fun k => map (fun v => checker v k) [z11; z12; z13; z14; z15; z16; z17; z18; z19; z20; z21; z22])).
  2: { intros k Hk. apply mmap_ok. intros j Hj. cbn [In] in Hk, Hj.
       assert (H1 : 1 <= k <= 6) by (clear - Hk; lia).
       repeat (destruct Hj as [<-|Hj]; [apply cell_ok; assumption|]). destruct Hj. }
  cbn [bind]. f_equal. unfold bg_lines. cbn [bgboard roll player pts hit1 hit2 col1 col2].
  rewrite join_app by discriminate. rewrite (join_app NL (map _ (seq 0 15))) by discriminate.
  match goal with |- context [join NL (map (join TAB) ?f)] => set (fin := f) end.
  assert (Ef : map (join TAB) fin = map (row_at (mkBoard [z; z0; z1; z2; z3; z4; z5; z6; z7; z8; z9; z10; z11; z12; z13; z14; z15; z16; z17; z18; z19; z20; z21; z22] h1 h2 c1 c2)) (seq 0 15)) by reflexivity.
  rewrite Ef. clear Ef fin. cbn [join]. change (join NL [rim]) with rim. fold rim. unfold show_pair. generalize rim. intros lne.
  generalize (join NL (map (row_at (mkBoard [z; z0; z1; z2; z3; z4; z5; z6; z7; z8; z9; z10; z11; z12; z13; z14; z15; z16; z17; z18; z19; z20; z21; z22] h1 h2 c1 c2)) (seq 0 15))). intros pic.
  destruct (p =? -1); cbn [txt list_ascii_of_string app]; repeat (rewrite <- ?app_assoc; cbn [app]); reflexivity.
Qed.
Transparent checker print_int.

Lemma check_x p k : 1 <= k <= 5 -> (checker p k = txt " " <-> Z.abs p < k).
Proof.
  intros Hk. unfold checker. destruct (Z.leb_spec k (Z.min 5 (Z.abs p))).
  - split; [|lia]. destruct (p <? 0); discriminate.
  - replace (k =? 6) with false by lia. cbn [andb]. split; [lia|reflexivity].
Qed.
Lemma check_same p q k : 1 <= k <= 5 -> checker p k = checker q k -> (Z.abs p < k <-> Z.abs q < k).
Proof. intros Hk E. pose proof (check_x p k Hk) as H1. pose proof (check_x q k Hk) as H2. rewrite E in H1. tauto. Qed.
Lemma checker_inj p q : -128 <= p <= 127 -> -128 <= q <= 127 -> (forall k, 1 <= k <= 6 -> checker p k = checker q k) -> p = q.
Proof.
  intros Hp Hq H. pose proof (check_same p q 1 ltac:(lia) (H 1 ltac:(lia))) as P1.
  assert (HS : p < 0 <-> q < 0).
  { specialize (H 1 ltac:(lia)). destruct (Z.eq_dec p 0) as [->|Np]; [lia|]. destruct (Z.eq_dec q 0) as [->|Nq]; [lia|]. unfold checker in H.
    replace (1 <=? Z.min 5 (Z.abs p)) with true in H by lia. replace (1 <=? Z.min 5 (Z.abs q)) with true in H by lia.
    destruct (Z.ltb_spec p 0), (Z.ltb_spec q 0); try discriminate H; lia. }
  assert (HA : Z.abs p = Z.abs q); [|lia].
  pose proof (check_same p q 2 ltac:(lia) (H 2 ltac:(lia))) as P2. pose proof (check_same p q 3 ltac:(lia) (H 3 ltac:(lia))) as P3.
  pose proof (check_same p q 4 ltac:(lia) (H 4 ltac:(lia))) as P4. pose proof (check_same p q 5 ltac:(lia) (H 5 ltac:(lia))) as P5.
  specialize (H 6 ltac:(lia)). unfold checker in H. replace (6 <=? Z.min 5 (Z.abs p)) with false in H by lia. replace (6 <=? Z.min 5 (Z.abs q)) with false in H by lia.
  change (6 =? 6) with true in H. cbn [andb] in H.
  destruct (Z.leb_spec 6 (Z.abs p)), (Z.leb_spec 6 (Z.abs q)); try discriminate H; [|lia].
  apply app_inv_head in H. apply int_inj in H; unfold is_i64; lia.
Qed.
Lemma checker_free c p k : ~ numchar c -> ~ In c (txt "xo+ ") -> ~ In c (checker p k).
Proof.
  intros Hn Hc. assert (H : forall t, (forall a, In a t -> In a (txt "xo+ ")) -> ~ In c t) by (intros t Ht Hin; exact (Hc (Ht c Hin))). unfold checker.
  destruct (k <=? _); [destruct (p <? 0); apply H; cbn; tauto|]. destruct (_ && _); [|apply H; cbn; tauto].
  intros Hin. apply in_app_or in Hin. destruct Hin as [Hin|Hin]; [|exact (int_free c _ Hn Hin)]. apply Hc. cbn in *. tauto.
Qed.
Lemma field_free c b r k : ~ numchar c -> ~ In c (txt "xo+ ") -> ~ In c (field_at b r k).
Proof.
  intros Hn Hc. unfold field_at. destruct (_ =? 0); [apply int_free; exact Hn|]. destruct (_ <=? 6); [apply checker_free; assumption|]. destruct (_ =? 7); [cbn in *; tauto|].
  destruct (_ <=? 13); [apply checker_free; assumption|apply int_free; exact Hn].
Qed.
Lemma bar_free c : c <> "|"%char -> ~ In c (txt "|").
Proof. cbn. intros H [E|[]]. congruence. Qed.
Lemma row_inj b b' r : row_at b r = row_at b' r -> forall c, (c < 12)%nat -> field_at b r c = field_at b' r c.
Proof.
  intros E. assert (HF : forall b, Forall (fun l => ~ In TAB l) ([txt "|"] ++ map (field_at b r) (seq 0 6) ++ [txt "|"] ++ map (field_at b r) (seq 6 6) ++ [txt "|"])).
  { intros x. assert (HB : ~ In TAB (txt "|")) by (apply bar_free; discriminate).
    assert (HM : forall l, Forall (fun l => ~ In TAB l) (map (field_at x r) l)).
    { intros l. apply Forall_forall. intros t Ht. apply in_map_iff in Ht. destruct Ht as (k & <- & _). apply field_free; [unfold numchar; cbn; lia|cbn; intuition discriminate]. }
    assert (H1 : Forall (fun l => ~ In TAB l) [txt "|"]) by (constructor; [exact HB|constructor]).
    apply Forall_app. split; [exact H1|]. apply Forall_app. split; [apply HM|]. apply Forall_app. split; [exact H1|]. apply Forall_app. split; [apply HM|exact H1]. }
  unfold row_at in E. apply join_inj in E; [|apply HF|apply HF|discriminate|discriminate].
  cbn [map seq app] in E. injection E as E0 E1 E2 E3 E4 E5 E6 E7 E8 E9 E10 E11.
  intros c Hc. do 12 (destruct c as [|c]; [assumption|]). lia.
Qed.

Lemma cons_eq {A} (a b : A) l m : a :: l = b :: m -> a = b /\ l = m.
Proof. intros E. injection E. auto. Qed.
Lemma board_inj b b' : length (pts b) = 24%nat -> length (pts b') = 24%nat -> Forall is_i8 (pts b) -> Forall is_i8 (pts b') ->
  map (row_at b) (seq 0 15) = map (row_at b') (seq 0 15) -> pts b = pts b'.
Proof.
  intros HL HL' HF HF' E.
  assert (HR : forall r c, (r < 15)%nat -> (c < 12)%nat -> field_at b r c = field_at b' r c).
  { intros r c Hr. apply row_inj. assert (En : nth_error (map (row_at b) (seq 0 15)) r = nth_error (map (row_at b') (seq 0 15)) r) by (rewrite E; reflexivity).
    rewrite !nth_error_map in En. rewrite (nth_error_nth' (seq 0 15) 0%nat) in En by (rewrite seq_length; exact Hr). rewrite seq_nth in En by exact Hr. cbn [option_map Nat.add] in En. exact (f_equal (fun o => match o with Some x => x | None => [] end) En). }
  apply nth_ext with (d := 0) (d' := 0); [congruence|]. rewrite HL. intros j Hj.
  assert (HI : forall l, length l = 24%nat -> Forall is_i8 l -> -128 <= nth j l 0 <= 127).
  { intros l Hl Hi. rewrite Forall_forall in Hi. apply Hi. apply nth_In. lia. }
  apply checker_inj; [apply HI; assumption|apply HI; assumption|]. intros k Hk.
  destruct (Nat.lt_ge_cases j 12) as [Hs|Hs].
  - specialize (HR (Z.to_nat (14 - k)) (11 - j)%nat ltac:(lia) ltac:(lia)). unfold field_at in HR. rewrite Z2Nat.id in HR by lia.
    replace (14 - k =? 0) with false in HR by lia. replace (14 - k <=? 6) with false in HR by lia. replace (14 - k =? 7) with false in HR by lia. replace (14 - k <=? 13) with true in HR by lia.
    replace (11 - (11 - j))%nat with j in HR by lia. replace (14 - (14 - k)) with k in HR by lia. exact HR.
  - specialize (HR (Z.to_nat k) (j - 12)%nat ltac:(lia) ltac:(lia)). unfold field_at in HR. rewrite Z2Nat.id in HR by lia.
    replace (k =? 0) with false in HR by lia. replace (k <=? 6) with true in HR by lia. replace (12 + (j - 12))%nat with j in HR by lia. exact HR.
Qed.
Ltac free := let H := fresh in intros H; repeat (apply in_app_or in H; destruct H as [H|H]); try (exact (NL_free _ H)); try (cbn in H; intuition discriminate).
Lemma row_NL b r : ~ In NL (row_at b r).
Proof.
  unfold row_at. assert (HJ : forall ls, Forall (fun l => ~ In NL l) ls -> ~ In NL (join TAB ls)).
  { induction 1 as [|l ls Hl HF IH]; [intros []|]. destruct ls as [|l2 ls]; [exact Hl|]. rewrite join_cons by discriminate. intros Hin. apply in_app_or in Hin.
    destruct Hin as [Hin|[Hin|Hin]]; [exact (Hl Hin)|discriminate Hin|exact (IH Hin)]. }
  apply HJ. assert (HM : forall l, Forall (fun l => ~ In NL l) (map (field_at b r) l)).
  { intros l. apply Forall_forall. intros t Ht. apply in_map_iff in Ht. destruct Ht as (k & <- & _). apply field_free; [unfold numchar; cbn; lia|cbn; intuition discriminate]. }
  assert (H1 : Forall (fun l => ~ In NL l) [txt "|"]) by (constructor; [apply bar_free; discriminate|constructor]).
  apply Forall_app. split; [exact H1|]. apply Forall_app. split; [apply HM|]. apply Forall_app. split; [exact H1|]. apply Forall_app. split; [apply HM|exact H1].
Qed.
Lemma rim_NL : ~ In NL rim.
Proof. intros H. apply repeat_spec in H. discriminate H. Qed.
Lemma lines_NL s : Forall (fun l => ~ In NL l) (bg_lines s).
Proof.
  unfold bg_lines. apply Forall_app. split.
  - repeat (apply Forall_cons; [|]); try apply Forall_nil; try apply rim_NL; try (cbn; intuition discriminate).
    + destruct (player s =? -1); free.
    + intros [H|H]; [discriminate H|revert H]. free.
    + intros [H|H]; [discriminate H|revert H]. free.
    + intros [H|H]; [discriminate H|revert H]. free.
    + intros [H|H]; [discriminate H|revert H]. free.
  - apply Forall_app. split; [|constructor; [apply rim_NL|constructor]]. apply Forall_forall. intros t Ht. apply in_map_iff in Ht. destruct Ht as (r & <- & _). apply row_NL.
Qed.
Lemma u8_i64 z : is_u8 z -> is_i64 z.
Proof. unfold is_u8, is_i64. lia. Qed.
Lemma C69_injective_lemma : forall pr pr' s s' t, drawable s -> drawable s' -> bg_pretty pr s = Ok t -> bg_pretty pr' s' = Ok t ->
  bgboard s = bgboard s' /\ roll s = roll s' /\ (player s = -1 <-> player s' = -1).
Proof.
  intros pr pr' s s' t HD HD' E E'. rewrite (C69_picture_lemma pr s HD) in E. rewrite (C69_picture_lemma pr' s' HD') in E'. apply (fun e => f_equal (fun o => match o with Ok x => x | Panic _ => [] end) (eq_trans e (eq_sym E'))) in E. clear E'. cbv beta iota in E.
  apply join_inj in E; [|apply lines_NL|apply lines_NL|discriminate|discriminate].
  destruct HD as [(HL & Hb & Hh1 & Hh2 & Hc1 & Hc2) (_ & Hr1 & Hr2)], HD' as [(HL' & Hb' & Hh1' & Hh2' & Hc1' & Hc2') (_ & Hr1' & Hr2')].
  unfold bg_lines in E. cbn [app] in E. apply cons_eq in E. destruct E as [E1 E]. apply cons_eq in E. destruct E as [_ E].
  apply cons_eq in E. destruct E as [E2 E]. apply cons_eq in E. destruct E as [E3 E]. apply cons_eq in E. destruct E as [_ E].
  apply cons_eq in E. destruct E as [E4 E]. apply cons_eq in E. destruct E as [E5 E]. apply cons_eq in E. destruct E as [_ E].
  apply app_inv_tail in E. apply cons_eq in E2. destruct E2 as [_ E2]. apply cons_eq in E3. destruct E3 as [_ E3]. apply cons_eq in E4. destruct E4 as [_ E4]. apply cons_eq in E5. destruct E5 as [_ E5].
  apply app_inv_head, int_inj in E2; [|apply u8_i64; assumption..]. apply app_inv_head, int_inj in E3; [|apply u8_i64; assumption..].
  apply app_inv_head, int_inj in E4; [|apply u8_i64; assumption..]. apply app_inv_head, int_inj in E5; [|apply u8_i64; assumption..].
  assert (EP : pts (bgboard s) = pts (bgboard s')) by (apply board_inj; assumption).
  split; [destruct (bgboard s) as [q1 q2 q3 q4 q5], (bgboard s') as [w1 w2 w3 w4 w5]; cbn [pts hit1 hit2 col1 col2] in *; congruence|].
  apply app_inv_head in E1.
  assert (EQ : (player s =? -1) = (player s' =? -1) /\ print_int (fst (roll s)) ++ txt ", " ++ print_int (snd (roll s)) ++ txt ")" = print_int (fst (roll s')) ++ txt ", " ++ print_int (snd (roll s')) ++ txt ")").
  { destruct (player s =? -1), (player s' =? -1); cbn [txt list_ascii_of_string app] in E1; try discriminate E1; (split; [reflexivity|]); do 9 (apply cons_eq in E1; destruct E1 as [_ E1]); exact E1. }
  destruct EQ as [EQ ER]. split; [|lia]. cbn [txt list_ascii_of_string app] in ER.
  apply (split_at ","%char) in ER; [|apply int_free; unfold numchar; cbn; lia..]. destruct ER as [ER1 ER]. apply cons_eq in ER. destruct ER as [_ ER]. apply app_inv_tail in ER.
  apply int_inj in ER1; [|apply u8_i64; assumption..]. apply int_inj in ER; [|apply u8_i64; assumption..]. destruct (roll s), (roll s'); cbn [fst snd] in *; congruence.
Qed.

(** ** positions of a game *)
Lemma pos_drawable s : bg_pos s -> drawable s.
Proof.
  intros (HW & _ & [H1 H2]). pose proof (WF_hits _ HW) as Hh. pose proof (WF_len _ HW) as HL. unfold die in *.
  assert (HB : forall x, In x (pts (bgboard s)) -> -15 <= x <= 15).
  { intros x Hx. destruct (In_nth _ _ 0 Hx) as (j & Hj & <-). pose proof (WF_at (bgboard s) (Z.of_nat j) HW ltac:(unfold on_board; lia)) as H. unfold at_pt in H. rewrite Nat2Z.id in H. exact H. }
  unfold drawable, typed_board, is_u8. split; [split; [exact HL|split; [apply Forall_forall; intros x Hx; specialize (HB x Hx); unfold is_i8; lia|lia]]|].
  split; [apply Forall_forall; intros x Hx; specialize (HB x Hx); lia|lia].
Qed.
Lemma C69_game_lemma : forall pr s, bg_pos s -> bg_pretty pr s = Ok (join NL (bg_lines s)) /\
  forall pr' s' t, bg_pos s' -> bg_pretty pr s = Ok t -> bg_pretty pr' s' = Ok t -> bgboard s = bgboard s' /\ roll s = roll s' /\ player s = player s'.
Proof.
  intros pr s H. split; [apply C69_picture_lemma, pos_drawable, H|]. intros pr' s' t H' E E'.
  destruct (C69_injective_lemma pr pr' s s' t (pos_drawable _ H) (pos_drawable _ H') E E') as (H1 & H2 & H3). split; [exact H1|]. split; [exact H2|].
  destruct H as (_ & (d & Hd) & _), H' as (_ & (d' & Hd') & _). unfold mover in *. destruct d, d'; cbn [sign] in *; lia.
Qed.

(** ** Tic-Tac-Toe *)
Lemma C69_ttt_lemma : forall s, length (tboard s) = 9%nat -> ttt_pretty s = Ok (join NL (ttt_lines s)).
Proof.
  intros [p b i] HL. cbn [tboard] in HL. do 9 (destruct b as [|? b]; [discriminate HL|]). destruct b; [|discriminate HL]. unfold ttt_pretty, ttt_lines. cbn [tboard].
  cbn [mmap idx Z.ltb Z.compare nth_error Z.to_nat Pos.to_nat Pos.iter_op Nat.add bind]. cbn [nth_error bind map join nth Nat.mul Nat.add]. unfold idx. cbn -[print_int].
  f_equal. repeat (rewrite <- ?app_assoc; cbn [app]). reflexivity.
Qed.
Lemma C69_ttt_injective_lemma : forall s s' t, typed_ttt s -> typed_ttt s' -> ttt_pretty s = Ok t -> ttt_pretty s' = Ok t -> tboard s = tboard s'.
Proof.
  intros s s' t (_ & HL & Hb & _) (_ & HL' & Hb' & _) E E'. rewrite (C69_ttt_lemma s HL) in E. rewrite (C69_ttt_lemma s' HL') in E'.
  apply (fun e => f_equal (fun o => match o with Ok x => x | Panic _ => [] end) (eq_trans e (eq_sym E'))) in E. clear E'. cbv beta iota in E.
  assert (HI : forall s, length (tboard s) = 9%nat -> Forall is_i8 (tboard s) -> forall j, (j < 9)%nat -> is_i64 (nth j (tboard s) 0)).
  { intros x Hx Hi j Hj. rewrite Forall_forall in Hi. assert (Hj' : (j < length (tboard x))%nat) by lia. specialize (Hi _ (nth_In (tboard x) 0 Hj')). unfold is_i8, is_i64 in *. lia. }
  assert (HB : forall x r, Forall (fun l => ~ In "|"%char l) (map (fun c => print_int (nth (3 * r + c) (tboard x) 0)) [0; 1; 2]%nat)).
  { intros x r. apply Forall_forall. intros l Hl. apply in_map_iff in Hl. destruct Hl as (c & <- & _). apply int_free. unfold numchar. cbn. lia. }
  assert (HN : forall x, Forall (fun l => ~ In NL l) (ttt_lines x)).
  { intros x. apply Forall_forall. intros l Hl. apply in_map_iff in Hl. destruct Hl as (r & <- & _). cbn [map join]. intros Hin.
    repeat (apply in_app_or in Hin; destruct Hin as [Hin|Hin]; [exact (NL_free _ Hin)|]; try (destruct Hin as [Hin|Hin]; [discriminate Hin|])). exact (NL_free _ Hin). }
  apply join_inj in E; [|apply HN|apply HN|discriminate|discriminate]. unfold ttt_lines in E. cbn [map] in E.
  apply cons_eq in E. destruct E as [E0 E]. apply cons_eq in E. destruct E as [E1 E]. apply cons_eq in E. destruct E as [E2 _].
  apply (join_inj _ _ _ (HB s 0%nat) (HB s' 0%nat)) in E0; [|discriminate..]. apply (join_inj _ _ _ (HB s 1%nat) (HB s' 1%nat)) in E1; [|discriminate..]. apply (join_inj _ _ _ (HB s 2%nat) (HB s' 2%nat)) in E2; [|discriminate..].
  assert (HE : forall r j, map (fun c => print_int (nth (3 * r + c) (tboard s) 0)) [0; 1; 2]%nat = map (fun c => print_int (nth (3 * r + c) (tboard s') 0)) [0; 1; 2]%nat -> (r < 3)%nat -> (j < 3)%nat ->
    nth (3 * r + j) (tboard s) 0 = nth (3 * r + j) (tboard s') 0).
  { intros r j E3 Hr Hj. apply int_inj; [apply HI; auto; lia|apply HI; auto; lia|]. apply (f_equal (fun l => nth j l [])) in E3. do 3 (destruct j as [|j]; [exact E3|]). lia. }
  apply nth_ext with (d := 0) (d' := 0); [congruence|]. rewrite HL. intros j Hj.
  pose proof (HE 0%nat) as H0; pose proof (HE 1%nat) as H1; pose proof (HE 2%nat) as H2. clear HE.
  do 3 (destruct j as [|j]; [first [exact (H0 0%nat E0 ltac:(lia) ltac:(lia))|exact (H0 1%nat E0 ltac:(lia) ltac:(lia))|exact (H0 2%nat E0 ltac:(lia) ltac:(lia))]|]).
  do 3 (destruct j as [|j]; [first [exact (H1 0%nat E1 ltac:(lia) ltac:(lia))|exact (H1 1%nat E1 ltac:(lia) ltac:(lia))|exact (H1 2%nat E1 ltac:(lia) ltac:(lia))]|]).
  do 3 (destruct j as [|j]; [first [exact (H2 0%nat E2 ltac:(lia) ltac:(lia))|exact (H2 1%nat E2 ltac:(lia) ltac:(lia))|exact (H2 2%nat E2 ltac:(lia) ltac:(lia))]|]). lia.
Qed.

(** ** printed trees *)
Section Printed.
  Context {G : Game}.
  Variable ln : f32 -> f32.
  Variable st : store G.
  Variable c : f32.
  Definition wired : Prop := (forall j n m, nth_error st j = Some n -> In m (n_children n) -> (j < m)%nat /\ exists cn, nth_error st m = Some cn /\ n_parent cn = Some j)
    /\ (forall j n, nth_error st j = Some n -> NoDup (n_children n))
    /\ (forall j n p, nth_error st j = Some n -> n_parent n = Some p -> exists pn, nth_error st p = Some pn).
  Hypothesis HW : wired.

  Lemma wired_ucb j n : nth_error st j = Some n -> exists u, ucb ln n st c = Ok u.
  Proof. intros H. unfold ucb. destruct (n_parent n) as [p|] eqn:E; [|eauto]. destruct HW as (_ & _ & HP). destruct (HP _ _ _ H E) as (pn & Hp). unfold get_node. rewrite Hp. cbn [bind]. eauto. Qed.

  Lemma below_down i n m k j : nth_error st i = Some n -> In m (n_children n) -> below st m k j -> below st i (S k) j.
  Proof. intros Hn Hm H. induction H as [|k j nj x H IH Hj Hx]; [exact (below_child st i 0 i n m (below_here st i) Hn Hm)|exact (below_child st i (S k) j nj x IH Hj Hx)]. Qed.
  Lemma below_up i k j : below st i (S k) j -> exists n m, nth_error st i = Some n /\ In m (n_children n) /\ below st m k j.
  Proof.
    revert j. induction k as [|k IH]; intros j H; inversion H as [|k' j' n' m' Hb Hj Hin]; subst.
    - inversion Hb; subst. exists n', j. split; [exact Hj|]. split; [exact Hin|constructor].
    - destruct (IH _ Hb) as (n & m & Hn & Hm & Hbm). exists n, m. split; [exact Hn|]. split; [exact Hm|]. exact (below_child st m k j' n' j Hbm Hj Hin).
  Qed.
  Lemma below_le i k j : below st i k j -> (i + k <= j)%nat.
  Proof. intros H. induction H as [|k j n m H IH Hj Hm]; [lia|]. destruct HW as (HC & _). destruct (HC _ _ _ Hj Hm) as [Hlt _]. lia. Qed.
  (** the path upwards is determined *)
  Fixpoint climb (k j : nat) : option nat :=
    match k with O => Some j | S k' => match nth_error st j with Some n => match n_parent n with Some p => climb k' p | None => None end | None => None end end.
  Lemma below_climb i k j : below st i k j -> climb k j = Some i.
  Proof. intros H. induction H as [|k j n m H IH Hj Hm]; [reflexivity|]. destruct HW as (HC & _). destruct (HC _ _ _ Hj Hm) as [_ (cn & Ec & Ep)]. cbn [climb]. rewrite Ec, Ep. exact IH. Qed.
  Lemma climb_add a b j : climb (a + b) j = match climb a j with Some x => climb b x | None => None end.
  Proof. revert j. induction a as [|a IH]; intros j; [reflexivity|]. cbn [Nat.add climb]. destruct (nth_error st j) as [n|]; [|reflexivity]. destruct (n_parent n); [apply IH|reflexivity]. Qed.
  (** nodes below different children are different *)
  Lemma siblings i n m m' k k' j : nth_error st i = Some n -> In m (n_children n) -> In m' (n_children n) -> below st m k j -> below st m' k' j -> m = m'.
  Proof.
    intros Hn Hm Hm' H H'. assert (HS : forall a b x y, In x (n_children n) -> In y (n_children n) -> below st x a j -> below st y b j -> (a <= b)%nat -> x = y).
    { intros a b x y Hx Hy Ha Hb Hle. pose proof (below_climb _ _ _ Ha) as Ca. pose proof (below_climb _ _ _ Hb) as Cb. replace b with (a + (b - a))%nat in Cb by lia. rewrite climb_add, Ca in Cb.
      destruct (b - a)%nat as [|d] eqn:Ed; [cbn in Cb; congruence|]. exfalso. cbn [climb] in Cb. destruct HW as (HC & _ & HP). destruct (HC _ _ _ Hn Hx) as [_ (cx & Ex & Px)]. destruct (HC _ _ _ Hn Hy) as [Hlt (cy & Ey & Py)].
      rewrite Ex, Px in Cb.
      assert (HB : below st y d i).
      { assert (HD : forall q t z, below st z (q + t) j -> exists w, climb q j = Some w /\ below st z t w).
        { induction q as [|q IHq]; intros t z Hz; [exists j; split; [reflexivity|exact Hz]|]. replace (S q + t)%nat with (q + S t)%nat in Hz by lia. destruct (IHq _ _ Hz) as (w & Cw & Bw).
          inversion Bw as [|? w' nw ? Hw1 Hw2 Hw3]; subst. exists w'. split; [|exact Hw1]. replace (S q) with (q + 1)%nat by lia. rewrite climb_add, Cw. cbn [climb]. destruct (HC _ _ _ Hw2 Hw3) as [_ (cn & Ec & Ep)]. rewrite Ec, Ep. reflexivity. }
        replace b with (S a + d)%nat in Hb by lia. destruct (HD _ _ _ Hb) as (w & Cw & Bw). replace (S a) with (a + 1)%nat in Cw by lia. rewrite climb_add, Ca in Cw. cbn [climb] in Cw. rewrite Ex, Px in Cw. injection Cw as <-. exact Bw. }
      apply below_le in HB. lia. }
    destruct (Nat.le_ge_cases k k') as [Hk|Hk]; [exact (HS k k' m m' Hm Hm' H H' Hk)|symmetry; exact (HS k' k m' m Hm' Hm H' H Hk)].
  Qed.

  Record shown (left cur i : nat) (ls : list (tline (Mv G))) : Prop := {
    sn_once : NoDup (map l_idx ls);
    sn_in : forall l, In l ls -> exists k, l_depth l = (cur + k)%nat /\ below st i k (l_idx l) /\ (k < left)%nat;
    sn_all : forall k j, below st i k j -> (k < left)%nat -> exists l, In l ls /\ l_idx l = j /\ l_depth l = (cur + k)%nat;
    sn_values : forall l, In l ls -> exists n u, nth_error st (l_idx l) = Some n /\ ucb ln n st c = Ok u
      /\ l = mkLine (l_depth l) (l_idx l) (n_action n) (n_visits n) (n_value n) u (fdiv (n_value n) (n_visits n));
    sn_first : left <> O -> exists l r, ls = l :: r /\ l_idx l = i /\ l_depth l = cur;
    sn_parent : forall a l b, ls = a ++ l :: b -> a <> [] -> exists a1 p a2 n, a = a1 ++ p :: a2 /\ l_depth l = S (l_depth p)
      /\ nth_error st (l_idx p) = Some n /\ In (l_idx l) (n_children n) /\ Forall (fun x => (l_depth p < l_depth x)%nat) a2
  }.
  Lemma cut {A} (xs ys a b : list A) x : xs ++ ys = a ++ x :: b ->
    (exists b', xs = a ++ x :: b' /\ b = b' ++ ys) \/ (exists a', a = xs ++ a' /\ ys = a' ++ x :: b).
  Proof.
    revert a. induction xs as [|y xs IH]; intros a E; [right; exists a; auto|]. destruct a as [|z a].
    - injection E as -> <-. left. exists xs. auto.
    - injection E as -> E. destruct (IH a E) as [(b' & -> & ->)|(a' & -> & ->)]; [left; exists b'|right; exists a']; auto.
  Qed.

  Lemma print_levels_ok left : forall cur i n, nth_error st i = Some n -> exists ls, print_levels ln st c left cur i = Ok ls /\ shown left cur i ls.
  Proof.
    induction left as [|left IH]; intros cur i n Hn.
    { exists []. split; [reflexivity|]. constructor; [apply NoDup_nil|intros l []|intros; lia|intros l []|congruence|intros a l b E; destruct a; discriminate E]. }
    cbn [print_levels]. unfold get_node. rewrite Hn. cbn [bind]. destruct (wired_ucb i n Hn) as (u & Eu). rewrite Eu. cbn [bind].
    assert (HK : forall cs, incl cs (n_children n) -> NoDup cs -> exists lss, mmap (print_levels ln st c left (S cur)) cs = Ok lss /\ Forall2 (fun m ls => shown left (S cur) m ls) cs lss).
    { induction cs as [|m cs IHc]; intros Hi Hd; [exists []; split; [reflexivity|constructor]|]. inversion Hd as [|? ? Hnm Hd']; subst.
      destruct HW as (HC & _). destruct (HC _ _ _ Hn (Hi m (or_introl eq_refl))) as [_ (cn & Ec & _)]. destruct (IH (S cur) m cn Ec) as (ls & El & Hs).
      destruct (IHc (fun x Hx => Hi x (or_intror Hx)) Hd') as (lss & Els & Hss). exists (ls :: lss). cbn [mmap]. rewrite El. cbn [bind]. rewrite Els. split; [reflexivity|constructor; assumption]. }
    assert (HND : NoDup (n_children n)) by (destruct HW as (_ & H & _); exact (H _ _ Hn)).
    destruct (HK (n_children n) (incl_refl _) HND) as (lss & Els & HF). rewrite Els. cbn [bind]. clear HK IH.
    exists (mkLine cur i (n_action n) (n_visits n) (n_value n) u (win_pct n) :: concat lss). split; [reflexivity|].
    assert (HI : forall l, In l (concat lss) -> exists m ls, In m (n_children n) /\ shown left (S cur) m ls /\ In l ls).
    { clear - HF. induction HF as [|m ls cs lss Hs HF IH]; intros l Hl; [destruct Hl|]. cbn [concat] in Hl. apply in_app_or in Hl. destruct Hl as [Hl|Hl]; [exists m, ls; split; [left; reflexivity|auto]|].
      destruct (IH l Hl) as (m' & ls' & H1 & H2). exists m', ls'. split; [right; exact H1|exact H2]. }
    constructor.
    - cbn [map l_idx]. constructor.
      + intros Hin. apply in_map_iff in Hin. destruct Hin as (l & El & Hl). destruct (HI l Hl) as (m & ls & Hm & Hs & Hl'). destruct (sn_in _ _ _ _ Hs l Hl') as (k & _ & Hb & _).
        apply below_le in Hb. destruct HW as (HC & _). destruct (HC _ _ _ Hn Hm) as [Hlt _]. lia.
      + assert (HG : forall cs lss, incl cs (n_children n) -> NoDup cs -> Forall2 (fun m ls => shown left (S cur) m ls) cs lss -> NoDup (map l_idx (concat lss))); [|exact (HG _ _ (incl_refl _) HND HF)].
        clear Els HF HI lss. intros cs lss Hi Hd HF. induction HF as [|m ls cs lss Hs HF IHF]; [apply NoDup_nil|]. cbn [concat]. rewrite map_app. inversion Hd as [|? ? Hnm Hd']; subst.
        assert (HIc : forall l, In l (concat lss) -> exists m ls, In m cs /\ shown left (S cur) m ls /\ In l ls).
        { clear - HF. induction HF as [|m ls cs lss Hs HF IH]; intros l Hl; [destruct Hl|]. cbn [concat] in Hl. apply in_app_or in Hl. destruct Hl as [Hl|Hl]; [exists m, ls; split; [left; reflexivity|auto]|].
          destruct (IH l Hl) as (m' & ls' & H1 & H2). exists m', ls'. split; [right; exact H1|exact H2]. }
        assert (HA : forall (p q : list nat), NoDup p -> NoDup q -> (forall x, In x p -> ~ In x q) -> NoDup (p ++ q)).
        { clear. induction p as [|x p IH]; intros q Hp Hq Hx; [exact Hq|]. inversion Hp; subst. cbn [app]. constructor; [intros Hin; apply in_app_or in Hin; destruct Hin as [Hin|Hin]; [auto|exact (Hx x (or_introl eq_refl) Hin)]|apply IH; auto; intros y Hy; apply Hx; right; exact Hy]. }
        apply HA; [exact (sn_once _ _ _ _ Hs)|apply IHF; auto; intros x Hx; apply Hi; right; exact Hx|]. intros x Hx Hx'.
        apply in_map_iff in Hx. destruct Hx as (l & El & Hl). apply in_map_iff in Hx'. destruct Hx' as (l' & El' & Hl'). destruct (HIc l' Hl') as (m' & ls' & Hm' & Hs' & Hin').
        destruct (sn_in _ _ _ _ Hs l Hl) as (k & _ & Hb & _). destruct (sn_in _ _ _ _ Hs' l' Hin') as (k' & _ & Hb' & _). rewrite El in Hb. rewrite El' in Hb'.
        pose proof (siblings i n m m' k k' x Hn (Hi m (or_introl eq_refl)) (Hi m' (or_intror Hm')) Hb Hb') as ->. exact (Hnm Hm').
    - intros l [<-|Hl]; [exists 0%nat; split; [cbn; lia|]; split; [constructor|lia]|]. destruct (HI l Hl) as (m & ls & Hm & Hs & Hl'). destruct (sn_in _ _ _ _ Hs l Hl') as (k & Ed & Hb & Hk).
      exists (S k). split; [lia|]. split; [exact (below_down _ _ _ _ _ Hn Hm Hb)|lia].
    - intros k j Hb Hk. destruct k as [|k]; [inversion Hb; subst; eexists; split; [left; reflexivity|cbn; split; [reflexivity|lia]]|].
      destruct (below_up _ _ _ Hb) as (n' & m & Hn' & Hm & Hbm). rewrite Hn in Hn'. injection Hn' as <-.
      assert (HE : exists ls, In ls lss /\ shown left (S cur) m ls).
      { clear - HF Hm. induction HF as [|m' ls cs lss Hs HF IH]; [destruct Hm|]. destruct Hm as [->|Hm]; [exists ls; split; [left; reflexivity|exact Hs]|]. destruct (IH Hm) as (ls' & H1 & H2). exists ls'. split; [right; exact H1|exact H2]. }
      destruct HE as (ls & Hls & Hs). destruct (sn_all _ _ _ _ Hs k j Hbm ltac:(lia)) as (l & Hl & El & Ed). exists l. split; [right; apply in_concat; exists ls; auto|]. split; [exact El|lia].
    - intros l [<-|Hl]; [exists n, u; cbn; auto|]. destruct (HI l Hl) as (m & ls & _ & Hs & Hl'). exact (sn_values _ _ _ _ Hs l Hl').
    - intros _. eexists. eexists. split; [reflexivity|]. cbn. auto.
    - set (l0 := mkLine cur i _ _ _ u _). intros a l b E Ha. destruct a as [|x a]; [congruence|]. clear Ha. cbn [app] in E. injection E as <- E.
      assert (HG : forall cs lss, incl cs (n_children n) -> Forall2 (fun m ls => shown left (S cur) m ls) cs lss -> forall a l b, concat lss = a ++ l :: b ->
        Forall (fun x => (cur < l_depth x)%nat) a /\
        ((l_depth l = S cur /\ In (l_idx l) (n_children n)) \/
        exists a1 p a2 n, a = a1 ++ p :: a2 /\ l_depth l = S (l_depth p) /\ nth_error st (l_idx p) = Some n /\ In (l_idx l) (n_children n) /\ Forall (fun x => (l_depth p < l_depth x)%nat) a2)).
      { clear. intros cs lss Hi HF. induction HF as [|m ls cs lss Hs HF IHF]; intros a l b E; [destruct a; discriminate E|]. cbn [concat] in E. destruct (cut _ _ _ _ _ E) as [(b' & El & Eb)|(a' & Ea & Els)].
        - split; [apply Forall_forall; intros x Hx; destruct (sn_in _ _ _ _ Hs x ltac:(rewrite El; apply in_or_app; left; exact Hx)) as (k & Ek & _); lia|].
          destruct a as [|y a]; [left|right; exact (sn_parent _ _ _ _ Hs (y :: a) l b' El ltac:(discriminate))]. 
          destruct left as [|left]; [destruct (sn_in _ _ _ _ Hs l ltac:(rewrite El; left; reflexivity)) as (k & _ & _ & Hk); lia|].
          destruct (sn_first _ _ _ _ Hs ltac:(discriminate)) as (l1 & r1 & E1 & Ei & Ed). rewrite El in E1. cbn [app] in E1. injection E1 as <- _. split; [exact Ed|]. rewrite Ei. apply Hi. left. reflexivity.
        - destruct (IHF (fun x Hx => Hi x (or_intror Hx)) a' l b Els) as [HA HB]. split.
          + rewrite Ea. apply Forall_app. split; [|exact HA]. apply Forall_forall. intros x Hx. destruct (sn_in _ _ _ _ Hs x Hx) as (k & Ek & _). lia.
          + destruct HB as [HB|(a1 & p & a2 & np & -> & HB)]; [left; exact HB|right]. exists (ls ++ a1), p, a2, np. split; [rewrite Ea, <- app_assoc; reflexivity|exact HB]. }
      destruct (HG _ _ (incl_refl _) HF a l b E) as [HA [[Hd Hin]|(a1 & p & a2 & np & -> & HB)]].
      + exists [], l0, a, n. cbn [app l_depth l_idx]. split; [reflexivity|]. split; [exact Hd|]. split; [exact Hn|]. split; [exact Hin|exact HA].
      + exists (l0 :: a1), p, a2, np. split; [reflexivity|exact HB].
  Qed.
  Lemma print_shows i n depth : nth_error st i = Some n -> exists ls, pretty_print ln st c i depth = Ok ls /\ shows ln st c i depth ls.
  Proof.
    intros Hn. destruct (print_levels_ok (S depth) 0 i n Hn) as (ls & El & Hs). exists ls. split; [exact El|]. constructor.
    - exact (sn_once _ _ _ _ Hs).
    - intros k j. split.
      + intros (l & Hl & <- & <-). destruct (sn_in _ _ _ _ Hs l Hl) as (k & Ed & Hb & Hk). cbn [Nat.add] in Ed. rewrite Ed. split; [exact Hb|lia].
      + intros [Hb Hk]. exact (sn_all _ _ _ _ Hs k j Hb ltac:(lia)).
    - exact (sn_values _ _ _ _ Hs).
    - destruct (sn_first _ _ _ _ Hs ltac:(discriminate)) as (l & r & -> & <- & _). reflexivity.
    - exact (sn_parent _ _ _ _ Hs).
  Qed.
End Printed.

Lemma tree_wired {G} (s : St G) st : tree s st -> wired st.
Proof.
  intros HT. assert (HL : forall j n m, nth_error st j = Some n -> In m (n_children n) -> (j < m)%nat /\ exists cn, nth_error st m = Some cn /\ n_parent cn = Some j).
  { intros j n m Hj Hm. destruct (tree_children _ _ _ HT _ _ _ Hj Hm) as (cn & Ec & Ep). split; [|eauto]. destruct m as [|m].
    - destruct (tree_root _ _ _ HT) as (n0 & E0 & P0 & _). congruence.
    - destruct (tree_parent _ _ _ HT _ _ Ec ltac:(lia)) as (p & pn & a & vm & r & r' & Ep' & Hlt & _). rewrite Ep in Ep'. injection Ep' as <-. exact Hlt. }
  split; [exact HL|]. split.
  - intros j n Hj. apply (NoDup_count_occ Nat.eq_dec). intros m. destruct (in_dec Nat.eq_dec m (n_children n)) as [Hin|Hin]; [|apply (count_occ_not_In Nat.eq_dec) in Hin; lia].
    destruct (HL _ _ _ Hj Hin) as [Hlt (cn & Ec & Ep)]. destruct (tree_parent _ _ _ HT _ _ Ec ltac:(lia)) as (p & pn & a & vm & r & r' & Ep' & _ & Epn & Hc & _).
    rewrite Ep in Ep'. injection Ep' as <-. rewrite Hj in Epn. injection Epn as <-. lia.
  - intros j n p Hj Hp. destruct j as [|j].
    + destruct (tree_root _ _ _ HT) as (n0 & E0 & P0 & _). congruence.
    + destruct (tree_parent _ _ _ HT _ _ Hj ltac:(lia)) as (p' & pn & a & vm & r & r' & Ep' & _ & Epn & _). rewrite Hp in Ep'. injection Ep' as <-. eauto.
Qed.
Lemma forest_wired {G} (ss : list (St G)) st : forest ss st -> wired st.
Proof.
  intros HT. assert (HP : forall j n p, nth_error st j = Some n -> n_parent n = Some p -> (p < j)%nat /\ exists pn, nth_error st p = Some pn).
  { intros j n p Hj Hp. destruct (Nat.lt_ge_cases j (length ss)) as [Hlt|Hge].
    - destruct (nth_error ss j) as [s|] eqn:Es; [|apply nth_error_None in Es; lia]. destruct (fo_roots _ _ _ HT _ _ Es) as (n0 & E0 & P0 & _). congruence.
    - destruct (fo_parent _ _ _ HT _ _ Hj Hge) as (p' & pn & a & vm & r & r' & Ep' & Hlt & Epn & _). rewrite Hp in Ep'. injection Ep' as <-. eauto. }
  split; [|split].
  - intros j n m Hj Hm. destruct (fo_children _ _ _ HT _ _ _ Hj Hm) as (cn & Ec & Ep). split; [exact (proj1 (HP _ _ _ Ec Ep))|eauto].
  - exact (fo_nodup _ _ _ HT).
  - intros j n p Hj Hp. exact (proj2 (HP _ _ _ Hj Hp)).
Qed.
Lemma C70_tree_lemma : forall G ln (s : St G) st c i depth, tree s st -> (i < length st)%nat -> exists ls, pretty_print ln st c i depth = Ok ls /\ shows ln st c i depth ls.
Proof. intros G ln s st c i depth HT Hi. destruct (nth_error st i) as [n|] eqn:E; [|apply nth_error_None in E; lia]. exact (print_shows ln st c (tree_wired _ _ HT) i n depth E). Qed.
Lemma C70_forest_lemma : forall G ln (ss : list (St G)) st c i depth, forest ss st -> (i < length st)%nat -> exists ls, pretty_print ln st c i depth = Ok ls /\ shows ln st c i depth ls.
Proof. intros G ln s st c i depth HT Hi. destruct (nth_error st i) as [n|] eqn:E; [|apply nth_error_None in E; lia]. exact (print_shows ln st c (forest_wired _ _ HT) i n depth E). Qed.
Lemma C70_complete_lemma : forall G ln (s : St G) st c depth, tree s st -> (length st <= S depth)%nat -> exists ls, pretty_print ln st c 0 depth = Ok ls /\ Permutation (map l_idx ls) (seq 0 (length st)).
Proof.
  intros G ln s st c depth HT Hd. destruct (tree_root _ _ _ HT) as (n0 & E0 & _). assert (Hlen : (0 < length st)%nat) by (apply nth_error_Some; congruence).
  destruct (C70_tree_lemma G ln s st c 0 depth HT Hlen) as (ls & El & Hs). exists ls. split; [exact El|]. apply NoDup_Permutation; [exact (sh_once _ _ _ _ _ _ Hs)|apply seq_NoDup|].
  intros j. rewrite in_seq. split.
  - intros Hj. apply in_map_iff in Hj. destruct Hj as (l & <- & Hl). destruct (sh_values _ _ _ _ _ _ Hs l Hl) as (n & u & En & _). assert (l_idx l < length st)%nat by (apply nth_error_Some; congruence). clear -H. lia.
  - intros [_ Hj]. assert (HB : forall j, (j < length st)%nat -> exists k, (k <= j)%nat /\ below st 0 k j).
    { clear - HT. induction j as [j IH] using (well_founded_induction lt_wf). intros Hj. destruct j as [|j]; [exists 0%nat; split; [lia|constructor]|]. destruct (nth_error st (S j)) as [n|] eqn:E; [|apply nth_error_None in E; lia].
      destruct (tree_parent _ _ _ HT _ _ E ltac:(lia)) as (p & pn & a & vm & r & r' & _ & Hlt & Epn & Hc & _). destruct (IH p Hlt ltac:(lia)) as (k & Hk & Hb). exists (S k). split; [lia|].
      apply (below_child st 0 k p pn (S j) Hb Epn). apply (count_occ_In Nat.eq_dec). lia. }
    destruct (HB j ltac:(lia)) as (k & Hk & Hb). assert (Hk2 : (k <= depth)%nat) by lia. clear HB. destruct (proj2 (sh_nodes _ _ _ _ _ _ Hs k j) (conj Hb Hk2)) as (l & Hl & Ei & _). apply in_map_iff. exists l. auto.
Qed.

(** ** winning rates *)
Definition shown_rate (w : Z) : f64 := percent (ddiv (f64_of_Z w) (f64_of_Z 400)).
Definition near4b (k : Z) (x : f64) (num : Z) : bool :=
  match x with
  | S754_zero _ => Z.abs num * 2 ^ k <=? 4
  | S754_finite s m e => (-100 <=? e) && (Z.abs ((if s then Z.neg m else Z.pos m) * 2 ^ (e + 100) * 4 - num * 2 ^ 100) * 2 ^ k <=? 4 * 2 ^ 100)
  | _ => false
  end.
Lemma near4b_ok k x w : near4b k x w = true -> near4 k x w.
Proof. destruct x as [| | |s m e]; cbn [near4b near4]; try discriminate; [lia|]. intros H. apply andb_prop in H. lia. Qed.
Definition f64_same (x y : f64) : bool := match x, y with
  | S754_zero s, S754_zero s' => Bool.eqb s s' | S754_infinity s, S754_infinity s' => Bool.eqb s s' | S754_finite s m e, S754_finite s' m' e' => Bool.eqb s s' && Pos.eqb m m' && Z.eqb e e' | _, _ => false end.
Lemma f64_same_ok x y : f64_same x y = true -> x = y.
Proof. destruct x as [s|s| |s m e], y as [s'|s'| |s' m' e']; cbn [f64_same]; intros H; try discriminate H; try (apply Bool.eqb_prop in H; congruence). apply andb_prop in H. destruct H as [H H3]. apply andb_prop in H. destruct H as [H1 H2]. apply Bool.eqb_prop in H1. apply Pos.eqb_eq in H2. apply Z.eqb_eq in H3. congruence. Qed.
Lemma f64_same_no x y : f64_same x y = false -> SFeqb x x = true -> x <> y.
Proof. intros H Hx <-. destruct x as [s|s| |s m e]; cbn [f64_same] in H; [| |discriminate Hx|]; rewrite Bool.eqb_reflx in H; [discriminate H|discriminate H|]. rewrite Pos.eqb_refl, Z.eqb_refl in H. discriminate H. Qed.
Definition check_rate (w : Z) : bool :=
  let x := shown_rate w in
  near4b 45 x w && SFeqb x x && Bool.eqb (f64_same x (ddiv (f64_of_Z w) (f64_of_Z 4))) (negb (existsb (Z.eqb w) inexact)) && SFleb (S754_zero false) x && SFleb x (f64_of_Z 100)
  && ((w =? 400) || SFltb x (shown_rate (w + 1))).
Lemma rates_checked : forallb check_rate (map Z.of_nat (seq 0 401)) = true.
Proof. vm_compute. reflexivity. Qed.
Lemma rate_checked w : 0 <= w <= 400 -> check_rate w = true.
Proof. intros H. pose proof rates_checked as HC. rewrite forallb_forall in HC. apply HC. apply in_map_iff. exists (Z.to_nat w). rewrite in_seq. lia. Qed.
Lemma C71_rate_lemma : forall w, 0 <= w <= 400 -> let x := percent (ddiv (f64_of_Z w) (f64_of_Z 400)) in
  near4 45 x w /\ SFleb (f64_of_Z 0) x = true /\ SFleb x (f64_of_Z 100) = true
  /\ (x = ddiv (f64_of_Z w) (f64_of_Z 4) <-> ~ In w inexact)
  /\ (w < 400 -> SFltb x (percent (ddiv (f64_of_Z (w + 1)) (f64_of_Z 400))) = true).
Proof.
  intros w Hw x. pose proof (rate_checked w Hw) as H. unfold check_rate in H. change (shown_rate w) with x in H. cbv zeta in H.
  do 5 (apply andb_prop in H; destruct H as [H ?]). split; [apply near4b_ok; assumption|]. split; [assumption|]. split; [assumption|]. split.
  - assert (HI : existsb (Z.eqb w) inexact = true <-> In w inexact).
    { rewrite existsb_exists. split; [intros (y & Hy & E); apply Z.eqb_eq in E; subst; exact Hy|intros Hi; exists w; rewrite Z.eqb_refl; auto]. }
    match goal with E : Bool.eqb _ _ = true |- _ => apply Bool.eqb_prop in E; rename E into HE end. split.
    + intros E Hin. apply HI in Hin. rewrite Hin in HE. apply f64_same_no in HE; [exact (HE E)|assumption].
    + intros Hn. apply f64_same_ok. rewrite HE. destruct (existsb (Z.eqb w) inexact); [destruct Hn; apply HI; reflexivity|reflexivity].
  - intros Hlt. match goal with E : (_ || _)%bool = true |- _ => apply Bool.orb_prop in E; destruct E as [E|E]; [lia|exact E] end.
Qed.
Lemma C71_summary_lemma : forall G I tsum dirichlet unif tpow cfg hash order p1 p2, setting G I tsum dirichlet unif tpow cfg hash order p1 p2 ->
  forall ln nanoid fuel r res r', play ln tsum dirichlet unif tpow nanoid cfg hash order p1 p2 fuel r = Ok (res, r') -> forall showf,
  exists starts ws, report (plays ln tsum dirichlet unif tpow cfg p1 p2) tpow (pl_type p1) (pl_type p2) res starts ws
    /\ summary showf res = concat (map (fun l => l ++ [NL])
         [txt "Player 1: " ++ agent_name (pl_type p1); txt "Player 2: " ++ agent_name (pl_type p2);
          txt "Wins Player 1: " ++ print_int (times (-1) ws); txt "Wins Player 2: " ++ print_int (times 1 ws);
          txt "Draws: " ++ print_int (400 - times (-1) ws - times 1 ws); txt "Number of Games: 400";
          txt "Winrate: " ++ showf (percent (ddiv (f64_of_Z (times (-1) ws)) (f64_of_Z 400))) ++ txt "%"]).
Proof.
  intros G I tsum dirichlet unif tpow cfg hash order p1 p2 HS ln nanoid fuel r res r' E showf. destruct (C39_accounting_lemma _ _ _ _ _ _ _ _ _ _ _ HS _ _ _ _ _ _ E) as (starts & ws & HR & _).
  exists starts, ws. split; [exact HR|]. destruct HR as [_ _ _ _ H1 H2 H3 H4 H5 [H6 H7]]. unfold summary. rewrite H1, H2, H3, H4, H5, H6, H7. cbn [map concat]. repeat rewrite <- app_assoc. cbn [app]. reflexivity.
Qed.

(** ** replay *)
Lemma unlines_app a b : unlines (a ++ b) = unlines a ++ unlines b.
Proof. unfold unlines. rewrite map_app, concat_app. reflexivity. Qed.
Lemma C72_text_lemma : forall T rd pretty dbg wait f (g : sgame T) p, load_game rd f = Some g -> pretty (sg_init g) = Ok p ->
  replay rd pretty dbg wait f = Ok (unlines (replay_head g ++ [p] ++ concat (map (replay_turn dbg wait p) (sg_turns g)))).
Proof.
  intros T rd pretty dbg wait f g p E Ep. unfold replay. rewrite E, Ep. cbn [bind].
  rewrite (mmap_ok _ (fun t => unlines (replay_turn dbg wait p t))).
  - cbn [bind]. f_equal. rewrite !unlines_app. apply f_equal2; [reflexivity|].
    apply f_equal2; [unfold unlines; cbn [map concat]; rewrite app_nil_r; reflexivity|]. induction (sg_turns g) as [|t ts IH]; [reflexivity|]. cbn [map concat]. rewrite unlines_app, IH. reflexivity.
  - intros t _. f_equal. unfold unlines, replay_turn, println, show_roll, show_pair. destruct (st_roll t) as [[a b]|], wait; cbn [map concat fst snd app]; rewrite <- ?app_assoc; cbn [app]; rewrite <- ?app_assoc; cbn [app]; rewrite ?app_nil_r; reflexivity.
Qed.
Lemma C72_fails_lemma : forall T rd pretty dbg wait f, (load_game (T := T) rd f = None -> replay rd pretty dbg wait f = Panic PExplicit)
  /\ (forall g e, load_game rd f = Some g -> pretty (sg_init g) = Panic e -> replay rd pretty dbg wait f = Panic e).
Proof. intros T rd pretty dbg wait f. unfold replay. split; [intros ->; reflexivity|intros g e -> ->; reflexivity]. Qed.

Lemma C72_ttt_match_lemma : forall pr tsum dirichlet unif tpow cfg hash order p1 p2, setting (ttt_game pr) ttt_pos tsum dirichlet unif tpow cfg hash order p1 p2 ->
  forall ln nanoid fuel r res r', play ln tsum dirichlet unif tpow nanoid cfg hash order p1 p2 fuel r = Ok (res, r') ->
  forall name dbg wait g, In g (r_games res) ->
  replay rd_ttt ttt_pretty dbg wait (print 0 (wr_game wr_ttt (saved name g)))
  = Ok (unlines (replay_head (saved name g) ++ [txt "0|0|0"; txt "0|0|0"; txt "0|0|0"])).
Proof.
  intros pr tsum dirichlet unif tpow cfg hash order p1 p2 HS ln nanoid fuel r res r' E name dbg wait g Hg.
  destruct (C42_no_turns_lemma _ _ _ _ _ _ _ _ _ _ _ _ _ _ _ _ E g Hg) as [HT _]. destruct (C39_accounting_lemma _ _ _ _ _ _ _ _ _ _ _ HS _ _ _ _ _ _ E) as (starts & ws & HR & _).
  destruct (report_inits _ _ _ _ _ _ _ _ HR g Hg) as (i & q & q' & Hi & EF). destruct (ttt_first pr i q) as (s1 & r1 & E1 & Hb & Hp & Hid). rewrite EF in E1. injection E1 as E1 _.
  assert (HI : typed_ttt (vg_init g)).
  { rewrite E1. unfold typed_ttt, is_i8, is_u64. rewrite Hb, Hp, Hid. split; [destruct (i <? 200)%nat; lia|]. split; [reflexivity|]. split; [|lia]. cbn. repeat constructor; lia. }
  rewrite (C72_text_lemma _ rd_ttt ttt_pretty dbg wait _ (saved name g) (join NL (ttt_lines (vg_init g)))).
  - cbn [saved sg_turns]. rewrite HT. cbn [map concat]. rewrite app_nil_r, !unlines_app. do 2 f_equal. cbn [saved sg_init]. unfold ttt_lines. rewrite E1, Hb. reflexivity.
  - apply C66_tictactoe_lemma. split; cbn [saved sg_turns sg_init]; [rewrite HT; constructor|exact HI].
  - apply C69_ttt_lemma. exact (proj1 (proj2 HI)).
Qed.
Lemma C72_bg_match_lemma : forall pr tsum dirichlet unif tpow cfg hash order p1 p2, setting (bg_game pr) bg_pos tsum dirichlet unif tpow cfg hash order p1 p2 ->
  forall ln nanoid fuel r res r', play ln tsum dirichlet unif tpow nanoid cfg hash order p1 p2 fuel r = Ok (res, r') ->
  forall name dbg wait g, In g (r_games res) ->
  replay rd_bg (bg_pretty pr) dbg wait (print 0 (wr_game wr_bg (saved name g))) = Ok (unlines (replay_head (saved name g) ++ bg_lines (vg_init g)))
  /\ bgboard (vg_init g) = initial_board.
Proof.
  intros pr tsum dirichlet unif tpow cfg hash order p1 p2 HS ln nanoid fuel r res r' E name dbg wait g Hg.
  destruct (C42_no_turns_lemma _ _ _ _ _ _ _ _ _ _ _ _ _ _ _ _ E g Hg) as [HT _]. destruct (C39_accounting_lemma _ _ _ _ _ _ _ _ _ _ _ HS _ _ _ _ _ _ E) as (starts & ws & HR & _).
  destruct (report_inits _ _ _ _ _ _ _ _ HR g Hg) as (i & q & q' & Hi & EF). destruct (bg_first pr i q) as (s1 & r1 & E1 & Hb & Hp & Hr & Hs & Hid). rewrite EF in E1. injection E1 as E1 _.
  split; [|rewrite E1; exact Hb].
  assert (HI : typed_bg (vg_init g) /\ drawable (vg_init g)).
  { rewrite E1. unfold typed_bg, drawable, is_i8, is_u64. rewrite Hb, Hp, Hid. unfold rolled, die in Hr. unfold is_u8. destruct (roll s1) as [d1 d2]; cbn [fst snd] in *.
    split; [split; [exact initial_typed|]; split; [lia|split; [lia|split; [destruct (i <? 200)%nat; lia|lia]]]|].
    split; [exact initial_typed|]. split; [cbn; repeat (apply Forall_cons; [lia|]); apply Forall_nil|lia]. }
  destruct HI as [HI HD]. rewrite (C72_text_lemma _ rd_bg (bg_pretty pr) dbg wait _ (saved name g) (join NL (bg_lines (vg_init g)))).
  - cbn [saved sg_turns]. rewrite HT. cbn [map concat]. rewrite app_nil_r, !unlines_app. do 2 f_equal. assert (HJ : forall ls, ls <> [] -> unlines [join NL ls] = unlines ls).
    { induction ls as [|l ls IH]; [congruence|]. intros _. destruct ls as [|l' ls]; [reflexivity|]. rewrite join_cons by discriminate. specialize (IH ltac:(discriminate)). unfold unlines in *. cbn [map concat] in *. rewrite <- IH. rewrite !app_nil_r, <- !app_assoc. reflexivity. }
    apply HJ. unfold bg_lines. discriminate.
  - apply C66_backgammon_lemma. split; cbn [saved sg_turns sg_init]; [rewrite HT; constructor|exact HI].
  - apply C69_picture_lemma. exact HD.
Qed.
