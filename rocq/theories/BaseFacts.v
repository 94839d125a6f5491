(** * BaseFacts: characterising lemmas for the primitives of Base.v *)
From Verif Require Import Base.
From Coq Require Import Permutation.
Require Import ZifyBool ZifyNat.
Ltac Zify.zify_post_hook ::= Z.div_mod_to_equations.
Global Arguments Z.add : simpl never.
Global Arguments Z.sub : simpl never.
Global Arguments Z.mul : simpl never.
Global Arguments Z.of_nat : simpl never.
Global Arguments Z.max : simpl never.

Lemma i8_ok pr z : -128 <= z <= 127 -> i8 pr z = Ok z.
Proof. intros H. unfold i8, in_i8. destruct (Z.leb_spec (-128) z), (Z.leb_spec z 127); cbn; auto; lia. Qed.
Lemma u8_ok pr z : 0 <= z <= 255 -> u8 pr z = Ok z.
Proof. intros H. unfold u8, in_u8. destruct (Z.leb_spec 0 z), (Z.leb_spec z 255); cbn; auto; lia. Qed.
Lemma wrap_i8_id z : -128 <= z <= 127 -> wrap_i8 z = z.
Proof. unfold wrap_i8. lia. Qed.
Lemma wrap_u8_id z : 0 <= z <= 255 -> wrap_u8 z = z.
Proof. unfold wrap_u8. lia. Qed.

Lemma idx_ok {A} (d : A) l i :
  0 <= i < Z.of_nat (length l) -> idx l i = Ok (nth (Z.to_nat i) l d).
Proof.
  intros H. unfold idx. destruct (Z.ltb_spec i 0); [lia|].
  rewrite (nth_error_nth' l d) by lia. reflexivity.
Qed.
Lemma idx_inv {A} (l : list A) i x :
  idx l i = Ok x -> 0 <= i < Z.of_nat (length l) /\ nth_error l (Z.to_nat i) = Some x.
Proof.
  unfold idx. destruct (Z.ltb_spec i 0); [discriminate|].
  destruct (nth_error l (Z.to_nat i)) eqn:E; [|discriminate].
  intros [= ->]. split; [|reflexivity].
  assert (nth_error l (Z.to_nat i) <> None) by congruence.
  apply nth_error_Some in H0. lia.
Qed.

Lemma set_nth_length {A} (l : list A) n v : length (set_nth l n v) = length l.
Proof. revert n; induction l as [|x l IH]; intros [|n]; cbn; auto. Qed.
Lemma nth_set_nth {A} (d : A) l n m v :
  (n < length l)%nat -> nth m (set_nth l n v) d = if Nat.eqb m n then v else nth m l d.
Proof.
  revert n m; induction l as [|x l IH]; intros [|n] [|m] H; cbn in *; try lia; auto.
  apply IH; lia.
Qed.
Lemma nth_error_set_nth {A} (l : list A) n m v :
  (n < length l)%nat ->
  nth_error (set_nth l n v) m = if Nat.eqb m n then Some v else nth_error l m.
Proof.
  revert n m; induction l as [|x l IH]; intros [|n] [|m] H; cbn in *; try lia; auto.
  apply IH; lia.
Qed.
Lemma set_nth_oob {A} (l : list A) n v : (length l <= n)%nat -> set_nth l n v = l.
Proof. revert n; induction l as [|x l IH]; intros [|n] H; cbn in *; auto; try lia. f_equal. apply IH; lia. Qed.

Lemma upd_ok {A} (l : list A) i v :
  0 <= i < Z.of_nat (length l) -> upd l i v = Ok (set_nth l (Z.to_nat i) v).
Proof.
  intros H. unfold upd. destruct (Z.ltb_spec i 0); [lia|].
  destruct (Nat.ltb_spec (Z.to_nat i) (length l)); [reflexivity|lia].
Qed.

Lemma In_range a b x : In x (range a b) <-> a <= x < b.
Proof.
  unfold range. rewrite in_map_iff. split.
  - intros (k & <- & H). apply in_seq in H. lia.
  - intros H. exists (Z.to_nat (x - a)). split; [lia|]. apply in_seq. lia.
Qed.
Lemma range_length a b : length (range a b) = Z.to_nat (b - a).
Proof. unfold range. rewrite map_length, seq_length. reflexivity. Qed.
Lemma nth_range a b k d : (k < Z.to_nat (b - a))%nat -> nth k (range a b) d = a + Z.of_nat k.
Proof.
  intros H. unfold range. rewrite (nth_indep _ d (a + Z.of_nat 0)) by (rewrite map_length, seq_length; lia).
  rewrite (map_nth (fun k => a + Z.of_nat k)), seq_nth by lia. lia.
Qed.
Lemma range_NoDup a b : NoDup (range a b).
Proof.
  unfold range. apply FinFun.Injective_map_NoDup; [|apply seq_NoDup].
  intros x y H; lia.
Qed.

Lemma slice_ok {A} (l : list A) a b :
  0 <= a <= b -> b <= Z.of_nat (length l) ->
  slice l a b = Ok (firstn (Z.to_nat (b - a)) (skipn (Z.to_nat a) l)).
Proof.
  intros H1 H2. unfold slice.
  destruct (Z.leb_spec 0 a), (Z.leb_spec a b), (Z.leb_spec b (Z.of_nat (length l))); cbn; auto; lia.
Qed.
Lemma nth_skipn {A} (d : A) l n m : nth m (skipn n l) d = nth (n + m) l d.
Proof.
  revert l; induction n as [|n IH]; intros l; cbn; auto.
  destruct l; cbn; [now destruct m|]. apply IH.
Qed.
Lemma nth_firstn {A} (d : A) l n m : (m < n)%nat -> nth m (firstn n l) d = nth m l d.
Proof. revert l m; induction n as [|n IH]; intros [|x l] [|m] H; cbn; auto; try lia. apply IH; lia. Qed.
(** elements of a slice *)
Lemma In_slice (l : list Z) a b x :
  0 <= a <= b -> b <= Z.of_nat (length l) ->
  In x (firstn (Z.to_nat (b - a)) (skipn (Z.to_nat a) l)) <->
  exists i, a <= i < b /\ x = nth (Z.to_nat i) l 0.
Proof.
  intros H1 H2. split.
  - intros H. apply (In_nth _ _ 0) in H. destruct H as (k & Hk & <-).
    rewrite firstn_length, skipn_length in Hk.
    rewrite nth_firstn, nth_skipn by lia.
    exists (a + Z.of_nat k). split; [lia|]. f_equal; lia.
  - intros (i & Hi & ->).
    replace (nth (Z.to_nat i) l 0) with
      (nth (Z.to_nat (i - a)) (firstn (Z.to_nat (b - a)) (skipn (Z.to_nat a) l)) 0).
    + apply nth_In. rewrite firstn_length, skipn_length. lia.
    + rewrite nth_firstn, nth_skipn by lia. f_equal; lia.
Qed.

Definition lsum (l : list Z) : Z := fold_right Z.add 0 l.
Lemma lsum_cons x l : lsum (x :: l) = x + lsum l.
Proof. reflexivity. Qed.
Lemma lsum_app a b : lsum (a ++ b) = lsum a + lsum b.
Proof. induction a as [|x a IH]; [reflexivity|]. rewrite <- app_comm_cons, !lsum_cons. lia. Qed.
Lemma lsum_nonneg l : (forall x, In x l -> 0 <= x) -> 0 <= lsum l.
Proof.
  induction l as [|x l IH]; intros H; [cbn; lia|]. rewrite lsum_cons.
  pose proof (H x (or_introl eq_refl)). specialize (IH (fun y Hy => H y (or_intror Hy))). lia.
Qed.
Lemma lsum_nonpos l : (forall x, In x l -> x <= 0) -> lsum l <= 0.
Proof.
  induction l as [|x l IH]; intros H; [cbn; lia|]. rewrite lsum_cons.
  pose proof (H x (or_introl eq_refl)). specialize (IH (fun y Hy => H y (or_intror Hy))). lia.
Qed.
Lemma lsum_nonpos_zero l : (forall x, In x l -> x <= 0) -> 0 <= lsum l -> forall x, In x l -> x = 0.
Proof.
  induction l as [|x l IH]; intros H Hs y Hy; [easy|]. rewrite lsum_cons in Hs.
  assert (lsum l <= 0) by (apply lsum_nonpos; intros z Hz; apply H; now right).
  pose proof (H x (or_introl eq_refl)).
  destruct Hy as [<-|Hy]; [lia|]. apply IH; auto; [|lia]. intros z Hz; apply H; now right.
Qed.
Lemma lsum_nonneg_zero l : (forall x, In x l -> 0 <= x) -> lsum l <= 0 -> forall x, In x l -> x = 0.
Proof.
  induction l as [|x l IH]; intros H Hs y Hy; [easy|]. rewrite lsum_cons in Hs.
  assert (0 <= lsum l) by (apply lsum_nonneg; intros z Hz; apply H; now right).
  pose proof (H x (or_introl eq_refl)).
  destruct Hy as [<-|Hy]; [lia|]. apply IH; auto; [|lia]. intros z Hz; apply H; now right.
Qed.
Lemma lsum_bound l B : 0 <= B -> (forall x, In x l -> - B <= x <= B) ->
  - (B * Z.of_nat (length l)) <= lsum l <= B * Z.of_nat (length l).
Proof.
  intros HB. induction l as [|x l IH]; intros H; [cbn; lia|].
  rewrite lsum_cons. cbn [length]. specialize (IH (fun y Hy => H y (or_intror Hy))).
  pose proof (H x (or_introl eq_refl)). rewrite Nat2Z.inj_succ. nia.
Qed.

Lemma sum_i8_ok pr l acc B :
  0 <= B -> (forall x, In x l -> - B <= x <= B) -> - 127 <= acc - B * Z.of_nat (length l) ->
  acc + B * Z.of_nat (length l) <= 127 ->
  mfold (fun acc x => i8 pr (acc + x)) l acc = Ok (acc + lsum l).
Proof.
  intros HB. revert acc; induction l as [|x l IH]; intros acc H H1 H2.
  - cbn. f_equal. lia.
  - cbn [mfold length] in *. pose proof (H x (or_introl eq_refl)).
    rewrite Nat2Z.inj_succ in *.
    rewrite i8_ok by nia. cbn [bind]. rewrite IH.
    + rewrite lsum_cons. f_equal. lia.
    + intros y Hy. apply H. now right.
    + nia.
    + nia.
Qed.

Lemma mfold_ext {A B} (f g : B -> A -> res B) l acc :
  (forall b a, In a l -> f b a = g b a) -> mfold f l acc = mfold g l acc.
Proof.
  revert acc; induction l as [|x l IH]; intros acc H; cbn; auto.
  rewrite H by (left; auto). destruct (g acc x); cbn; auto. apply IH. intros; apply H; right; auto.
Qed.
Lemma mfold_app {A B} (f : B -> A -> res B) l1 l2 acc :
  mfold f (l1 ++ l2) acc = (x <- mfold f l1 acc ;; mfold f l2 x).
Proof. revert acc; induction l1 as [|x l IH]; intros acc; cbn; auto. destruct (f acc x); cbn; auto. Qed.

Lemma mmap_ok {A B} (f : A -> res B) (g : A -> B) l :
  (forall x, In x l -> f x = Ok (g x)) -> mmap f l = Ok (map g l).
Proof.
  induction l as [|x l IH]; intros H; cbn; auto.
  rewrite H by (left; auto). cbn. rewrite IH by (intros; apply H; right; auto). reflexivity.
Qed.
Lemma mmap_is_ok {A B} (f : A -> res B) l :
  (forall x, In x l -> is_ok (f x)) -> is_ok (mmap f l).
Proof.
  induction l as [|x l IH]; intros H; cbn; [eexists; eauto|].
  destruct (H x (or_introl eq_refl)) as [y ->]. cbn.
  destruct IH as [ys ->]; [intros; apply H; right; auto|]. cbn. eexists; eauto.
Qed.
(** [mmap] relates elements pointwise *)
Lemma mmap_Forall2 {A B} (f : A -> res B) l ys :
  mmap f l = Ok ys -> Forall2 (fun x y => f x = Ok y) l ys.
Proof.
  revert ys; induction l as [|x l IH]; cbn; intros ys H.
  - injection H as <-. constructor.
  - destruct (f x) as [y|] eqn:E; cbn in H; [|discriminate].
    destruct (mmap f l) as [ys'|]; cbn in H; [|discriminate]. injection H as <-.
    constructor; auto.
Qed.
Lemma mmap_length {A B} (f : A -> res B) l ys : mmap f l = Ok ys -> length ys = length l.
Proof. intros H. apply mmap_Forall2 in H. induction H; cbn; congruence. Qed.

Lemma gen_range_spec lo hi r : lo <= hi -> lo <= fst (gen_range lo hi r) <= hi.
Proof.
  intros H. unfold gen_range, draw. cbn.
  pose proof (Z.mod_pos_bound (Z.of_N (src r (pos r))) (hi - lo + 1)). lia.
Qed.
Lemma choose_In {A} (l : list A) r x r' : choose l r = (Some x, r') -> In x l.
Proof.
  destruct l as [|a l]; [discriminate|]. unfold choose.
  destruct (gen_range _ _ r) as [k r1] eqn:E. intros [= H <-]. now apply nth_error_In in H.
Qed.
Lemma choose_None {A} (l : list A) r r' : choose l r = (None, r') <-> l = [] /\ r' = r.
Proof.
  destruct l as [|a l]; cbn [choose]; [intuition congruence|].
  destruct (gen_range 0 (Z.of_nat (length (a :: l)) - 1) r) as [k r1] eqn:E.
  pose proof (gen_range_spec 0 (Z.of_nat (length (a :: l)) - 1) r) as Hr. rewrite E in Hr. cbn [fst] in Hr.
  cbn [length] in Hr.
  split; [|intros [? _]; discriminate].
  intros [= H _]. apply nth_error_None in H. cbn [length] in *. lia.
Qed.
