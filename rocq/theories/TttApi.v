(** * TttApi: proofs of the TicTacToe and network-input properties, re-exported by Prop_Ttt.v. *)
From Verif Require Import Base BaseFacts BgModel BgSpec BgReach Tensor BgTensor TttModel TttSpec.
From Coq Require Import Sorting.Sorted.
Require Import ZifyBool ZifyNat.
Ltac Zify.zify_post_hook ::= Z.div_mod_to_equations.

Lemma len9 (b : list Z) : length b = 9%nat ->
  exists a0 a1 a2 a3 a4 a5 a6 a7 a8, b = [a0; a1; a2; a3; a4; a5; a6; a7; a8].
Proof.
  intros H. do 9 (destruct b as [|? b]; [discriminate H|]). destruct b; [|discriminate H].
  repeat eexists.
Qed.
Lemma cell_all (P : Z -> Prop) : (forall i, 0 <= i < 9 -> P i) <->
  P 0 /\ P 1 /\ P 2 /\ P 3 /\ P 4 /\ P 5 /\ P 6 /\ P 7 /\ P 8.
Proof.
  split.
  - intros H. repeat split; apply H; lia.
  - intros (H0 & H1 & H2 & H3 & H4 & H5 & H6 & H7 & H8) i Hi.
    assert (i = 0 \/ i = 1 \/ i = 2 \/ i = 3 \/ i = 4 \/ i = 5 \/ i = 6 \/ i = 7 \/ i = 8) as Hc by lia.
    decompose [or] Hc; subst; assumption.
Qed.

Lemma nth_error_range a b k : (k < Z.to_nat (b - a))%nat -> nth_error (range a b) k = Some (a + Z.of_nat k).
Proof.
  intros H. unfold range. rewrite nth_error_map.
  rewrite (nth_error_nth' _ 0%nat) by (rewrite seq_length; lia). rewrite seq_nth by lia. reflexivity.
Qed.

Lemma vm_gen (b : list Z) : forall a,
  forall m, In m (map fst (filter (fun iv : Z * Z => snd iv =? 0) (combine (map (fun k => a + Z.of_nat k) (seq 0 (length b))) b)))
  <-> a <= m < a + Z.of_nat (length b) /\ nth (Z.to_nat (m - a)) b 1 = 0.
Proof.
  induction b as [|x b IH]; intros a m; cbn [length seq map combine filter snd].
  - cbn. lia.
  - rewrite <- seq_shift, map_map.
    assert (E : map (fun k => a + Z.of_nat (S k)) (seq 0 (length b)) = map (fun k => (a + 1) + Z.of_nat k) (seq 0 (length b)))
      by (apply map_ext; intros; lia).
    assert (HH : In m (map fst (filter (fun iv : Z * Z => snd iv =? 0) (combine (map (fun k => a + Z.of_nat (S k)) (seq 0 (length b))) b)))
       <-> a + 1 <= m < a + 1 + Z.of_nat (length b) /\ nth (Z.to_nat (m - (a + 1))) b 1 = 0).
    { rewrite E. apply IH. }
    assert (HS : a + 1 <= m -> Z.to_nat (m - a) = S (Z.to_nat (m - (a + 1)))) by lia.
    destruct (Z.eqb_spec x 0) as [->|Hx].
    + cbn [map fst In]. rewrite HH. split.
      * intros [<-|[Hr Hn]]; [split; [lia|]|split; [lia|]].
        -- replace (Z.to_nat (a + Z.of_nat 0 - a)) with 0%nat by lia. reflexivity.
        -- rewrite HS by lia. exact Hn.
      * intros [Hr Hn]. destruct (Z.eq_dec m a) as [->|Hne]; [left; lia|right].
        rewrite HS in Hn by lia. split; [lia|exact Hn].
    + rewrite HH. split; intros [Hr Hn].
      * split; [lia|]. rewrite HS by lia. exact Hn.
      * destruct (Z.eq_dec m a) as [->|Hne].
        -- replace (Z.to_nat (a - a)) with 0%nat in Hn by lia. cbn in Hn. congruence.
        -- rewrite HS in Hn by lia. split; [lia|exact Hn].
Qed.
Lemma ss_map_seq a n : forall k, StronglySorted Z.lt (map (fun k => a + Z.of_nat k) (seq k n)).
Proof.
  induction n as [|n IH]; intros k; cbn; constructor; [apply IH|].
  apply Forall_forall. intros x Hx. apply in_map_iff in Hx. destruct Hx as (j & <- & Hj).
  apply in_seq in Hj. lia.
Qed.
Lemma ss_filter (P : Z * Z -> bool) l : StronglySorted Z.lt (map fst l) -> StronglySorted Z.lt (map fst (filter P l)).
Proof.
  induction l as [|x l IH]; intros H; cbn; [constructor|]. cbn in H. inversion H as [|? ? Hs Hf]; subst.
  destruct (P x); [|auto]. cbn. constructor; [auto|].
  apply Forall_forall. intros y Hy. rewrite Forall_forall in Hf. apply Hf.
  apply in_map_iff in Hy. destruct Hy as (z & <- & Hz). apply in_map, (filter_In P). apply filter_In in Hz. apply filter_In. tauto.
Qed.
Lemma fst_combine (A B : Type) (l : list A) : forall l' : list B, length l = length l' -> map fst (combine l l') = l.
Proof. induction l as [|x l IH]; intros [|y l'] H; cbn in *; try discriminate; f_equal; auto. Qed.

Lemma valid_moves_in s m : In m (ttt_valid_moves s) <->
  0 <= m < Z.of_nat (length (tboard s)) /\ nth (Z.to_nat m) (tboard s) 1 = 0.
Proof.
  unfold ttt_valid_moves, range. rewrite Z.sub_0_r, Nat2Z.id, vm_gen, Z.sub_0_r. reflexivity.
Qed.
Lemma valid_moves_cell s m : length (tboard s) = 9%nat -> In m (ttt_valid_moves s) <-> 0 <= m < 9 /\ cell (tboard s) m = 0.
Proof.
  intros HL. rewrite valid_moves_in, HL. unfold cell.
  split; intros [Hr Hn]; (split; [lia|]); rewrite <- Hn; apply nth_indep; lia.
Qed.

Lemma nth_set_nth (l : list Z) : forall n v k d, (n < length l)%nat ->
  nth k (set_nth l n v) d = if (k =? n)%nat then v else nth k l d.
Proof.
  induction l as [|x l IH]; intros n v k d H; cbn in H; [lia|].
  destruct n as [|n]; destruct k as [|k]; cbn; auto. apply IH. lia.
Qed.
Lemma set_nth_len (l : list Z) : forall n v, length (set_nth l n v) = length l.
Proof. induction l as [|x l IH]; intros [|n] v; cbn; auto. Qed.

Lemma apply_move_eq pr s m s' : length (tboard s) = 9%nat -> 0 <= m < 9 -> ttt_apply_move pr s m = Ok s' ->
  length (tboard s') = 9%nat
  /\ (forall i, 0 <= i < 9 -> cell (tboard s') i = if i =? m then tplayer s else cell (tboard s) i)
  /\ i8 pr (tplayer s * -1) = Ok (tplayer s') /\ tid s' = tid s.
Proof.
  intros HL Hm. unfold ttt_apply_move, upd. rewrite HL.
  destruct (Z.ltb_spec m 0); [lia|]. destruct (Nat.ltb_spec (Z.to_nat m) 9); [|lia]. cbn [bind].
  destruct (i8 pr (tplayer s * -1)) as [p|] eqn:Ep; cbn [bind]; [|discriminate].
  intros [= <-]. cbn [tboard tplayer tid]. rewrite set_nth_len. repeat split; auto.
  intros i Hi. unfold cell. rewrite nth_set_nth by lia.
  destruct (Nat.eqb_spec (Z.to_nat i) (Z.to_nat m)); destruct (Z.eqb_spec i m); auto; lia.
Qed.

(** the eight index triples and the geometric lines *)
Definition line3 (b : list Z) (p : Z) (t : Z * Z * Z) : Prop :=
  let '(x, y, z) := t in cell b x = p /\ cell b y = p /\ cell b z = p.
Lemma in3_all (P : Z -> Prop) : (forall i, in3 i -> P i) <-> P 0 /\ P 1 /\ P 2.
Proof.
  unfold in3. split; [intros H; repeat split; apply H; lia|].
  intros (H0 & H1 & H2) i Hi. assert (i = 0 \/ i = 1 \/ i = 2) as [->| [->| ->]] by lia; assumption.
Qed.
Lemma in3_ex (P : Z -> Prop) : (exists i, in3 i /\ P i) <-> P 0 \/ P 1 \/ P 2.
Proof.
  unfold in3. split.
  - intros (i & Hi & H). assert (i = 0 \/ i = 1 \/ i = 2) as [->| [->| ->]] by lia; auto.
  - intros [H|[H|H]]; eexists; (split; [|exact H]); lia.
Qed.
Lemma owns_combos b p : owns_line b p <-> Exists (line3 b p) combos.
Proof.
  unfold owns_line. rewrite (in3_ex (fun r => forall c, in3 c -> at_rc b r c = p)).
  rewrite (in3_ex (fun c => forall r, in3 r -> at_rc b r c = p)). rewrite !in3_all.
  unfold combos. rewrite !Exists_cons, Exists_nil. unfold line3, at_rc.
  cbn [Z.mul Z.add Z.sub]. tauto.
Qed.
Lemma find_line_some b l a : find_line b l = Some a -> a <> 0 /\ Exists (line3 b a) l.
Proof.
  induction l as [|[[x y] z] l IH]; cbn; [discriminate|].
  destruct (negb (cell b x =? 0) && (cell b x =? cell b y) && (cell b y =? cell b z)) eqn:E.
  - intros [= <-]. split; [lia|]. left. cbn. lia.
  - intros H. destruct (IH H). split; auto.
Qed.
Lemma find_line_none b l : find_line b l = None -> forall p, p <> 0 -> ~ Exists (line3 b p) l.
Proof.
  induction l as [|[[x y] z] l IH]; cbn; intros H p Hp HE; [inversion HE|].
  destruct (negb (cell b x =? 0) && (cell b x =? cell b y) && (cell b y =? cell b z)) eqn:E; [discriminate|].
  inversion HE as [? ? H1|? ? H1]; subst; [|exact (IH H p Hp H1)]. cbn in H1. lia.
Qed.
Lemma forallb_full b : length b = 9%nat -> (forallb (fun v => negb (v =? 0)) b = true <-> full_board b).
Proof.
  intros HL. destruct (len9 b HL) as (a0 & a1 & a2 & a3 & a4 & a5 & a6 & a7 & a8 & ->).
  unfold full_board. rewrite (cell_all (fun i => cell _ i <> 0)). unfold cell.
  cbn [forallb]. rewrite !andb_true_iff, !negb_true_iff, !Z.eqb_neq. cbn. tauto.
Qed.

(** at most one player owns a line *)
Definition one_owner (b : list Z) : Prop :=
  forall p q, p <> 0 -> q <> 0 -> owns_line b p -> owns_line b q -> p = q.

Lemma check_winner_spec s : length (tboard s) = 9%nat -> one_owner (tboard s) ->
  (forall p, p <> 0 -> (ttt_check_winner s = Some p <-> owns_line (tboard s) p))
  /\ (ttt_check_winner s = Some 0 <-> full_board (tboard s) /\ forall p, p <> 0 -> ~ owns_line (tboard s) p)
  /\ (ttt_check_winner s = None <-> ~ full_board (tboard s) /\ forall p, p <> 0 -> ~ owns_line (tboard s) p).
Proof.
  intros HL H1. unfold ttt_check_winner. pose proof (forallb_full _ HL) as HF.
  destruct (find_line (tboard s) combos) as [a|] eqn:E.
  - destruct (find_line_some _ _ _ E) as [Ha Ho]. apply owns_combos in Ho. split; [|split].
    + intros p Hp. split; [intros Hx; injection Hx as <-; assumption|]. intros Hq. f_equal. apply H1; auto.
    + split; [intros Hx; injection Hx as Hx; contradiction|]. intros [_ Hn]. destruct (Hn a Ha Ho).
    + split; [discriminate|]. intros [_ Hn]. destruct (Hn a Ha Ho).
  - assert (Hn : forall p, p <> 0 -> ~ owns_line (tboard s) p)
      by (intros p Hp Ho; apply owns_combos in Ho; exact (find_line_none _ _ E p Hp Ho)).
    destruct (forallb (fun v => negb (v =? 0)) (tboard s)) eqn:EF.
    + split; [|split]; [intros p Hp; split; [intros Hx; injection Hx as Hx; congruence|intros Ho; destruct (Hn p Hp Ho)]| |].
      * split; [intros _; split; [apply HF; reflexivity|assumption]|reflexivity].
      * split; [discriminate|]. intros [Hf _]. destruct Hf. apply HF. reflexivity.
    + assert (HF' : ~ full_board (tboard s)) by (rewrite <- HF; discriminate).
      split; [|split]; [intros p Hp; split; [discriminate|intros Ho; destruct (Hn p Hp Ho)]| |].
      * split; [discriminate|]. intros [Hf _]. contradiction.
      * split; auto.
Qed.

Fixpoint nfull (b : list Z) : nat :=
  match b with [] => 0%nat | x :: b' => ((if (x =? 0)%Z then 0 else 1) + nfull b')%nat end.
Lemma nfull_set (b : list Z) : forall n v, (n < length b)%nat -> nth n b 1 = 0 -> v <> 0 -> nfull (set_nth b n v) = S (nfull b).
Proof.
  induction b as [|x b IH]; intros [|n] v Hl H0 Hv; cbn in *; try lia.
  - subst. rewrite Z.eqb_refl. destruct (Z.eqb_spec v 0); [contradiction|]. reflexivity.
  - rewrite IH by (auto; lia). lia.
Qed.
Lemma nfull_le b : (nfull b <= length b)%nat.
Proof. induction b as [|x b IH]; cbn; [lia|]. destruct (x =? 0); cbn; lia. Qed.
Lemma nfull_all b : nfull b = length b -> forallb (fun v => negb (v =? 0)) b = true.
Proof.
  induction b as [|x b IH]; cbn; [reflexivity|]. pose proof (nfull_le b).
  destruct (x =? 0); cbn; intros; [lia|apply IH; lia].
Qed.

Definition mark (x : Z) : Prop := x = -1 \/ x = 0 \/ x = 1.
Definition tinv (n : nat) (s : ttt) : Prop :=
  length (tboard s) = 9%nat /\ (tplayer s = -1 \/ tplayer s = 1) /\ Forall mark (tboard s)
  /\ nfull (tboard s) = n /\ one_owner (tboard s).
Lemma Forall_set_nth (P : Z -> Prop) l : forall n v, Forall P l -> P v -> Forall P (set_nth l n v).
Proof. induction l as [|x l IH]; intros [|n] v H Hv; cbn; auto; inversion H; subst; constructor; auto. Qed.
Lemma i8_neg pr p q : p = -1 \/ p = 1 -> i8 pr (p * -1) = Ok q -> q = - p.
Proof. intros [-> | ->]; cbn; intros [= <-]; reflexivity. Qed.
Lemma tgame_inv pr n s : tgame pr n s -> tinv n s.
Proof.
  induction 1 as [|n s s' Hg IH E|n s k Hg IH|n s m s' Hg IH Ew Hm E].
  - unfold tinv. cbn [ttt_new tboard tplayer]. split; [reflexivity|]. split; [auto|]. split; [|split; [reflexivity|]].
    + apply Forall_forall. intros x Hx. apply repeat_spec in Hx. right; left; exact Hx.
    + intros p q Hp Hq Ho _. exfalso. apply owns_combos in Ho. unfold combos in Ho.
      rewrite !Exists_cons, Exists_nil in Ho. unfold line3, cell in Ho. cbn -[Pos.to_nat] in Ho. unfold Pos.to_nat in Ho; cbn in Ho.
      decompose [or and] Ho; congruence || contradiction.
  - destruct IH as (HL & HP & HM & HN & H1). unfold ttt_skip_turn in E.
    destruct (i8 pr (tplayer s * -1)) as [p|] eqn:Ep; cbn in E; [|discriminate].
    injection E as <-. pose proof (i8_neg _ _ _ HP Ep). unfold tinv. cbn [tboard tplayer]. split; [assumption|]. split; [lia|]. split; [assumption|]. split; assumption.
  - exact IH.
  - destruct IH as (HL & HP & HM & HN & H1).
    assert (Hm' := Hm). apply (valid_moves_cell _ _ HL) in Hm'. destruct Hm' as [Hr Hc].
    destruct (apply_move_eq _ _ _ _ HL Hr E) as (HL' & Hcell & Ep & _).
    assert (Eb : tboard s' = set_nth (tboard s) (Z.to_nat m) (tplayer s)).
    { unfold ttt_apply_move, upd in E. destruct (Z.ltb_spec m 0); [lia|].
      destruct (Nat.ltb_spec (Z.to_nat m) (length (tboard s))); [|lia]. cbn in E.
      destruct (i8 pr (tplayer s * -1)); cbn in E; [|discriminate]. injection E as <-. reflexivity. }
    assert (Hp0 : tplayer s <> 0) by lia.
    unfold tinv. split; [assumption|]. split; [apply i8_neg in Ep; lia|].
    split; [rewrite Eb; apply Forall_set_nth; [assumption|unfold mark; lia]|].
    split.
    + rewrite Eb, nfull_set; auto; [lia|]. apply valid_moves_in in Hm. tauto.
    + destruct (check_winner_spec _ HL H1) as (_ & _ & HNo). destruct (proj1 HNo Ew) as [_ Hno].
      assert (Hsame : forall p, p <> 0 -> owns_line (tboard s') p -> p = tplayer s).
      { intros p Hp Ho. destruct (Z.eq_dec p (tplayer s)) as [|Hne]; [assumption|exfalso].
        apply (Hno p Hp). apply owns_combos. apply owns_combos in Ho.
        assert (Hk : forall i, 0 <= i < 9 -> cell (tboard s') i = p -> cell (tboard s) i = p).
        { intros i Hi. rewrite (Hcell i Hi). destruct (Z.eqb_spec i m); [intros; congruence|auto]. }
        unfold combos in *. rewrite !Exists_cons, Exists_nil in *. unfold line3 in *.
        repeat match goal with H : _ \/ _ |- _ => destruct H as [H|H] end;
          repeat match goal with H : _ /\ _ |- _ => destruct H end; try contradiction;
          repeat match goal with H : cell (tboard s') _ = p |- _ => apply Hk in H; [|lia] end; tauto. }
      intros p q Hp Hq Hop Hoq. rewrite (Hsame p Hp Hop), (Hsame q Hq Hoq). reflexivity.
Qed.

Lemma none_has_move s : ttt_check_winner s = None -> exists m, In m (ttt_valid_moves s).
Proof.
  unfold ttt_check_winner. destruct (find_line _ _); [discriminate|].
  destruct (forallb (fun v => negb (v =? 0)) (tboard s)) eqn:E; [discriminate|]. intros _.
  assert (H : exists k, (k < length (tboard s))%nat /\ nth k (tboard s) 1 = 0).
  { clear -E. induction (tboard s) as [|x b IH]; cbn in E; [discriminate|].
    destruct (Z.eqb_spec x 0) as [->|]; cbn in E; [exists 0%nat; cbn; split; [lia|reflexivity]|].
    destruct (IH E) as (k & Hk & Hn). exists (S k). cbn. split; [lia|assumption]. }
  destruct H as (k & Hk & Hn). exists (Z.of_nat k). apply valid_moves_in. rewrite Nat2Z.id. lia.
Qed.

(** ** Network inputs *)
Lemma ttt_tensor_eq s a0 a1 a2 a3 a4 a5 a6 a7 a8 : tboard s = [a0; a1; a2; a3; a4; a5; a6; a7; a8] ->
  ttt_as_tensor s = Ok (mkT [1; 3; 3; 3]%nat
    (map (fun x => if x =? -1 then 1 else 0) (tboard s) ++ map (fun x => if x =? 0 then 1 else 0) (tboard s)
     ++ map (fun x => if x =? 1 then 1 else 0) (tboard s))).
Proof. intros E. unfold ttt_as_tensor. rewrite E. reflexivity. Qed.

Lemma bg_tensor_eq s : length (pts (bgboard s)) = 24%nat -> roll s <> (0, 0) ->
  bg_as_tensor s = Ok (mkT [1; 6; 4; 6]%nat
    (pts (bgboard s) ++ repeat (player s) 24
     ++ repeat (hit1 (bgboard s)) 12 ++ repeat (hit2 (bgboard s)) 12
     ++ repeat (col1 (bgboard s)) 12 ++ repeat (col2 (bgboard s)) 12
     ++ repeat (fst (roll s)) 12 ++ repeat (snd (roll s)) 12
     ++ repeat (if second s then 1 else 0) 24)).
Proof.
  intros HL HR. unfold bg_as_tensor. destruct s as [b [r0 r1] p sp i]. cbn [roll fst snd bgboard player second] in *.
  destruct (Z.eqb_spec r0 0); destruct (Z.eqb_spec r1 0); cbn [andb]; try (subst; congruence).
  all: destruct (pts b) as [|x0 l] eqn:E; [discriminate HL|];
    do 23 (destruct l as [|? l]; [discriminate HL|]); (destruct l; [|discriminate HL]); reflexivity.
Qed.
Lemma app_eq_len (A : Type) (a : list A) : forall b c d, length a = length b -> a ++ c = b ++ d -> a = b /\ c = d.
Proof.
  induction a as [|x a IH]; intros [|y b] c d HL E; cbn in *; try discriminate; auto.
  injection E as -> E. destruct (IH b c d (eq_add_S _ _ HL) E) as [-> ->]. auto.
Qed.
Lemma repeat_inj (A : Type) (x y : A) n : repeat x (S n) = repeat y (S n) -> x = y.
Proof. cbn. intros [= E _]. exact E. Qed.
Lemma bg_tensor_panic s : length (pts (bgboard s)) = 24%nat -> (exists p, bg_as_tensor s = Panic p) <-> roll s = (0, 0).
Proof.
  intros HL. split.
  - intros [p E]. destruct (roll s) as [r0 r1] eqn:ER. destruct (Z.eq_dec r0 0) as [->|Hn]; [destruct (Z.eq_dec r1 0) as [->|Hn]; [reflexivity|]|].
    all: rewrite bg_tensor_eq in E; [discriminate|assumption|rewrite ER; congruence].
  - intros E. exists PAssert. unfold bg_as_tensor. rewrite E. reflexivity.
Qed.

Theorem C20_shape_and_content_lemma : forall s, length (pts (bgboard s)) = 24%nat ->
  ((exists p, bg_as_tensor s = Panic p) <-> roll s = (0, 0))
  /\ (roll s <> (0, 0) -> exists t, bg_as_tensor s = Ok t /\ shape t = [1; 6; 4; 6]%nat /\ length (data t) = 144%nat
      /\ forall i j, (i < 4)%nat -> (j < 6)%nat ->
           get 0 t [0; 0; i; j]%nat = nth (6 * i + j) (pts (bgboard s)) 0
        /\ get 0 t [0; 1; i; j]%nat = player s
        /\ get 0 t [0; 2; i; j]%nat = (if (i <? 2)%nat then hit1 (bgboard s) else hit2 (bgboard s))
        /\ get 0 t [0; 3; i; j]%nat = (if (i <? 2)%nat then col1 (bgboard s) else col2 (bgboard s))
        /\ get 0 t [0; 4; i; j]%nat = (if (i <? 2)%nat then fst (roll s) else snd (roll s))
        /\ get 0 t [0; 5; i; j]%nat = (if second s then 1 else 0)).
Proof.
  intros s HL. split; [apply bg_tensor_panic; assumption|]. intros HR. eexists. split; [apply bg_tensor_eq; assumption|].
  split; [reflexivity|]. split; [cbn [data]; rewrite !app_length, !repeat_length, HL; reflexivity|].
  destruct s as [b [r0 r1] p sp i0]. cbn [roll fst snd bgboard player second] in *.
  destruct (pts b) as [|x0 l] eqn:E; [discriminate HL|];
    do 23 (destruct l as [|? l]; [discriminate HL|]); (destruct l; [|discriminate HL]).
  intros i j Hi Hj. unfold get. cbn [shape data].
  do 4 (destruct i as [|i]; [do 6 (destruct j as [|j]; [repeat split|]); lia|]). lia.
Qed.

Theorem C20_faithful_lemma : forall s s' t, length (pts (bgboard s)) = 24%nat -> length (pts (bgboard s')) = 24%nat ->
  bg_as_tensor s = Ok t -> bg_as_tensor s' = Ok t ->
  bgboard s = bgboard s' /\ roll s = roll s' /\ player s = player s' /\ second s = second s'.
Proof.
  intros s s' t HL HL' E E'.
  assert (HR : roll s <> (0, 0)) by (intros H; apply (bg_tensor_panic s HL) in H; destruct H; congruence).
  assert (HR' : roll s' <> (0, 0)) by (intros H; apply (bg_tensor_panic s' HL') in H; destruct H; congruence).
  rewrite bg_tensor_eq in E, E' by assumption. rewrite <- E in E'. clear E. apply (f_equal (fun r => match r with Ok x => data x | _ => [] end)) in E'. cbv beta iota delta [data] in E'.
  destruct s as [[q h1 h2 c1 c2] [r0 r1] p sp i], s' as [[q' h1' h2' c1' c2'] [r0' r1'] p' sp' i'].
  cbn [bgboard pts hit1 hit2 col1 col2 roll fst snd player second] in *.
  apply app_eq_len in E'; [|congruence]. destruct E' as [E0 E'].
  do 7 (apply app_eq_len in E'; [|rewrite !repeat_length; reflexivity]; let Ex := fresh "Ex" in destruct E' as [Ex E']; apply repeat_inj in Ex).
  apply repeat_inj in E'. assert (sp = sp') by (destruct sp, sp'; congruence). subst. auto.
Qed.

Theorem C21_valid_moves_lemma : forall s, length (tboard s) = 9%nat ->
  StronglySorted Z.lt (ttt_valid_moves s)
  /\ forall m, In m (ttt_valid_moves s) <-> 0 <= m < 9 /\ cell (tboard s) m = 0.
Proof.
  intros s HL. split; [|intros m; apply valid_moves_cell; assumption].
  unfold ttt_valid_moves. apply ss_filter. rewrite fst_combine.
  - apply ss_map_seq.
  - unfold range. rewrite map_length, seq_length. lia.
Qed.

Theorem C21_apply_move_lemma : forall pr s m, length (tboard s) = 9%nat -> tplayer s = -1 \/ tplayer s = 1 -> In m (ttt_valid_moves s) ->
  exists s', ttt_apply_move pr s m = Ok s' /\ length (tboard s') = 9%nat
    /\ cell (tboard s') m = tplayer s
    /\ (forall i, 0 <= i < 9 -> i <> m -> cell (tboard s') i = cell (tboard s) i)
    /\ tplayer s' = - tplayer s /\ tid s' = tid s.
Proof.
  intros pr s m HL HP Hm. apply (valid_moves_cell _ _ HL) in Hm. destruct Hm as [Hr Hc].
  assert (Hex : exists s', ttt_apply_move pr s m = Ok s').
  { unfold ttt_apply_move, upd. destruct (Z.ltb_spec m 0); [lia|].
    destruct (Nat.ltb_spec (Z.to_nat m) (length (tboard s))); [|lia]. cbn [bind].
    destruct HP as [-> | ->]; cbn; eexists; reflexivity. }
  destruct Hex as [s' E]. exists s'. destruct (apply_move_eq _ _ _ _ HL Hr E) as (HL' & Hcell & Ep & Hid).
  split; [assumption|]. split; [assumption|]. split; [rewrite Hcell, Z.eqb_refl by assumption; reflexivity|].
  split; [|split; [apply (i8_neg pr); assumption|assumption]].
  intros i Hi Hne. rewrite Hcell by assumption. destruct (Z.eqb_spec i m); [contradiction|reflexivity].
Qed.

Theorem C22_winner_lemma : forall s, length (tboard s) = 9%nat ->
  (forall p q, p <> 0 -> q <> 0 -> owns_line (tboard s) p -> owns_line (tboard s) q -> p = q) ->
  (forall p, p <> 0 -> (ttt_check_winner s = Some p <-> owns_line (tboard s) p))
  /\ (ttt_check_winner s = Some 0 <-> full_board (tboard s) /\ forall p, p <> 0 -> ~ owns_line (tboard s) p)
  /\ (ttt_check_winner s = None <-> ~ full_board (tboard s) /\ forall p, p <> 0 -> ~ owns_line (tboard s) p).
Proof.
  intros s HL H1. apply check_winner_spec; assumption.
Qed.

Theorem C22_play_lemma : forall pr n s, tgame pr n s ->
  length (tboard s) = 9%nat /\ (tplayer s = -1 \/ tplayer s = 1)
  /\ Forall (fun x => x = -1 \/ x = 0 \/ x = 1) (tboard s)
  /\ (forall p q, p <> 0 -> q <> 0 -> owns_line (tboard s) p -> owns_line (tboard s) q -> p = q)
  /\ (forall w, ttt_check_winner s = Some w -> w = -1 \/ w = 0 \/ w = 1).
Proof.
  intros pr n s H. destruct (tgame_inv pr n s H) as (HL & HP & HM & HN & H1).
  split; [assumption|]. split; [assumption|]. split; [exact HM|]. split; [exact H1|].
  intros w Hw. destruct (Z.eq_dec w 0) as [|Hn]; [auto|].
  destruct (check_winner_spec s HL H1) as (Hs & _). apply (Hs w Hn) in Hw. apply owns_combos in Hw.
  assert (Hc : exists i, 0 <= i < 9 /\ cell (tboard s) i = w).
  { unfold combos in Hw. rewrite !Exists_cons, Exists_nil in Hw. unfold line3 in Hw.
    decompose [or] Hw; try contradiction;
      match goal with H : cell _ ?i = w /\ _ |- _ => exists i; split; [lia|tauto] end. }
  destruct Hc as (i & Hi & Ei). rewrite Forall_forall in HM. destruct (HM w) as [|[|]]; auto.
  rewrite <- Ei. unfold cell. apply nth_In. lia.
Qed.

Theorem C23_games_end_lemma : (forall s, ttt_check_winner s = None -> ttt_valid_moves s <> [])
  /\ forall pr n s, tgame pr n s -> (n <= 9)%nat /\ (n = 9%nat -> ttt_check_winner s <> None).
Proof.
  split.
  - intros s E H. destruct (none_has_move s E) as [m Hm]. rewrite H in Hm. exact Hm.
  - intros pr n s H. destruct (tgame_inv pr n s H) as (HL & HP & HM & HN & H1).
    pose proof (nfull_le (tboard s)). split; [lia|]. intros -> E.
    unfold ttt_check_winner in E. rewrite (nfull_all (tboard s)) in E by lia. destruct (find_line _ _); discriminate.
Qed.

Theorem C24_codec_lemma : (forall s m, length (tboard s) = 9%nat -> In m (ttt_valid_moves s) ->
     0 <= ttt_encode m < ttt_ACTIONS /\ ttt_decode (ttt_encode m) = Ok m)
  /\ (forall s, length (tboard s) = 9%nat -> ~ In ttt_EMPTY (ttt_valid_moves s))
  /\ (forall c, 0 <= c < 2 ^ 32 -> ((exists p, ttt_decode c = Panic p) <-> 255 < c)).
Proof.
  split; [|split].
  - intros s m HL Hm. apply (valid_moves_cell _ _ HL) in Hm. unfold ttt_encode, ttt_decode, ttt_ACTIONS.
    split; [lia|]. replace ((0 <=? m) && (m <=? 255)) with true by lia. reflexivity.
  - intros s HL Hm. apply (valid_moves_cell _ _ HL) in Hm. unfold ttt_EMPTY in Hm. lia.
  - intros c Hc. unfold ttt_decode. destruct ((0 <=? c) && (c <=? 255)) eqn:E; split.
    + intros [p Hp]; discriminate.
    + lia.
    + lia.
    + intros _. eexists. reflexivity.
Qed.

Theorem C25_board_determined_lemma : forall s s', length (tboard s) = 9%nat -> length (tboard s') = 9%nat ->
  Forall (fun x => x = -1 \/ x = 0 \/ x = 1) (tboard s) -> Forall (fun x => x = -1 \/ x = 0 \/ x = 1) (tboard s') ->
  (exists t, ttt_as_tensor s = Ok t /\ shape t = [1; 3; 3; 3]%nat /\ length (data t) = 27%nat
    /\ forall r c, (r < 3)%nat -> (c < 3)%nat ->
         get 0 t [0; 0; r; c]%nat = (if cell (tboard s) (3 * Z.of_nat r + Z.of_nat c) =? -1 then 1 else 0)
      /\ get 0 t [0; 1; r; c]%nat = (if cell (tboard s) (3 * Z.of_nat r + Z.of_nat c) =? 0 then 1 else 0)
      /\ get 0 t [0; 2; r; c]%nat = (if cell (tboard s) (3 * Z.of_nat r + Z.of_nat c) =? 1 then 1 else 0))
  /\ (ttt_as_tensor s = ttt_as_tensor s' -> tboard s = tboard s').
Proof.
  intros s s' HL HL' HM HM'.
  destruct (len9 _ HL) as (a0 & a1 & a2 & a3 & a4 & a5 & a6 & a7 & a8 & E).
  destruct (len9 _ HL') as (b0 & b1 & b2 & b3 & b4 & b5 & b6 & b7 & b8 & E').
  rewrite (ttt_tensor_eq s _ _ _ _ _ _ _ _ _ E), (ttt_tensor_eq s' _ _ _ _ _ _ _ _ _ E'). split.
  - eexists. split; [reflexivity|]. split; [reflexivity|]. rewrite E. split; [reflexivity|].
    intros r c Hr Hc. do 3 (destruct r as [|r]; [do 3 (destruct c as [|c]; [repeat split|]); lia|]). lia.
  - intros H. injection H as H. rewrite <- HL in HL'. apply app_eq_len in H; [|rewrite !map_length; congruence].
    destruct H as [H1 H]. apply app_eq_len in H; [|rewrite !map_length; congruence]. destruct H as [H2 H3].
    clear E E' H2. revert HL' HM HM' H1 H3. generalize (tboard s'). clear. induction (tboard s) as [|x l IH]; intros [|y l'] HL HM HM' H1 H3; try discriminate; auto.
    cbn in *. inversion HM; inversion HM'; subst. injection H1 as H1 H1'. injection H3 as H3 H3'.
    f_equal; [|apply IH; auto]. destruct (Z.eqb_spec x (-1)); destruct (Z.eqb_spec y (-1)); destruct (Z.eqb_spec x 1); destruct (Z.eqb_spec y 1); lia.
Qed.

Theorem C25_player_hidden_lemma : forall pr, exists s s', tgame pr 0 s /\ tgame pr 0 s' /\ ttt_check_winner s = None
  /\ s = ttt_new /\ ttt_skip_turn pr s = Ok s'
  /\ tplayer s <> tplayer s' /\ ttt_as_tensor s = ttt_as_tensor s'.
Proof.
  intros pr. exists ttt_new, (mkTtt 1 (repeat 0 9) 0).
  assert (E : ttt_skip_turn pr ttt_new = Ok (mkTtt 1 (repeat 0 9) 0)) by reflexivity.
  split; [constructor|]. split; [eapply tg_skip; [constructor|exact E]|]. repeat split; auto. discriminate.
Qed.
