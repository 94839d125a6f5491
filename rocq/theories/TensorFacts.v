(** * TensorFacts: index_put, rows and element access. *)
From Verif Require Import Base BaseFacts Tensor.
From Coq Require Import Arith.
Require Import ZifyBool ZifyNat.

Lemma set_nth_len (A : Type) (l : list A) : forall i v, length (set_nth l i v) = length l.
Proof. induction l as [|x l IH]; intros [|i] v; cbn; auto. Qed.
Lemma nth_set_same (A : Type) (d : A) (l : list A) : forall i v, (i < length l)%nat -> nth i (set_nth l i v) d = v.
Proof. induction l as [|x l IH]; intros [|i] v H; cbn in *; try lia; [reflexivity|]. apply IH. lia. Qed.
Lemma nth_set_other (A : Type) (d : A) (l : list A) : forall i j v, i <> j -> nth j (set_nth l i v) d = nth j l d.
Proof. induction l as [|x l IH]; intros [|i] [|j] v H; cbn; auto; try congruence. Qed.
Lemma nth_err (A : Type) (d : A) (l : list A) i : (i < length l)%nat -> nth_error l i = Some (nth i l d).
Proof. intros H. apply nth_error_nth'. exact H. Qed.

Lemma upd_ok (A : Type) (l : list A) c v : 0 <= c < Z.of_nat (length l) -> upd l c v = Ok (set_nth l (Z.to_nat c) v).
Proof.
  intros H. unfold upd. destruct (Z.ltb_spec c 0); [lia|]. destruct (Nat.ltb_spec (Z.to_nat c) (length l)); [reflexivity|lia].
Qed.
Lemma upd_inv (A : Type) (l : list A) c v l' : upd l c v = Ok l' -> 0 <= c < Z.of_nat (length l) /\ l' = set_nth l (Z.to_nat c) v.
Proof.
  unfold upd. destruct (Z.ltb_spec c 0); [discriminate|]. destruct (Nat.ltb_spec (Z.to_nat c) (length l)); [|discriminate].
  intros [= <-]. split; [lia|reflexivity].
Qed.
Lemma idx_ok (A : Type) (d : A) (l : list A) c : 0 <= c < Z.of_nat (length l) -> idx l c = Ok (nth (Z.to_nat c) l d).
Proof. intros H. unfold idx. destruct (Z.ltb_spec c 0); [lia|]. rewrite (nth_err _ d) by lia. reflexivity. Qed.
Lemma idx_inv (A : Type) (d : A) (l : list A) c v : idx l c = Ok v -> 0 <= c < Z.of_nat (length l) /\ v = nth (Z.to_nat c) l d.
Proof.
  unfold idx. destruct (Z.ltb_spec c 0); [discriminate|]. destruct (nth_error l (Z.to_nat c)) as [x|] eqn:E; [|discriminate].
  intros [= <-]. assert (Z.to_nat c < length l)%nat by (apply nth_error_Some; congruence). split; [lia|].
  symmetry. apply nth_error_nth. exact E.
Qed.

(** ** index_put on one dimension *)
Definition puts {A} (l : list A) (cvs : list (Z * A)) : res (list A) :=
  mfold (fun acc cv => upd acc (fst cv) (snd cv)) cvs l.
Lemma puts_cons (A : Type) (l : list A) c v cvs : puts l ((c, v) :: cvs) = (l' <- upd l c v ;; puts l' cvs).
Proof. reflexivity. Qed.
Lemma puts_app (A : Type) (l : list A) a : forall b, puts l (a ++ b) = (l' <- puts l a ;; puts l' b).
Proof.
  revert l. induction a as [|[c v] a IH]; intros l b; [reflexivity|]. cbn [app]. rewrite !puts_cons.
  destruct (upd l c v); cbn [bind]; [apply IH|reflexivity].
Qed.
Lemma puts_ok (A : Type) (cvs : list (Z * A)) : forall l, Forall (fun cv => 0 <= fst cv < Z.of_nat (length l)) cvs ->
  exists r, puts l cvs = Ok r /\ length r = length l.
Proof.
  induction cvs as [|[c v] cvs IH]; intros l H; [exists l; split; reflexivity|]. inversion H as [|? ? Hc Hr]; subst.
  rewrite puts_cons, (upd_ok _ _ _ _ Hc). cbn [bind]. destruct (IH (set_nth l (Z.to_nat c) v)) as (r & E & HL).
  - rewrite set_nth_len. exact Hr.
  - exists r. rewrite set_nth_len in HL. auto.
Qed.
Lemma puts_inv (A : Type) (d : A) (cvs : list (Z * A)) : forall l r, puts l cvs = Ok r ->
  length r = length l
  /\ (forall j, ~ In (Z.of_nat j) (map fst cvs) -> nth j r d = nth j l d)
  /\ (NoDup (map fst cvs) -> forall c v, In (c, v) cvs -> 0 <= c < Z.of_nat (length l) /\ nth (Z.to_nat c) r d = v).
Proof.
  induction cvs as [|[c v] cvs IH]; intros l r E.
  - injection E as <-. split; [reflexivity|]. split; [reflexivity|]. intros _ c v [].
  - rewrite puts_cons in E. destruct (upd l c v) as [l'|] eqn:Eu; cbn [bind] in E; [|discriminate].
    apply upd_inv in Eu. destruct Eu as [Hc ->]. destruct (IH _ _ E) as (HL & H1 & H2). rewrite set_nth_len in HL, H2.
    split; [exact HL|]. split.
    + intros j Hj. cbn [map fst In] in Hj. rewrite H1 by tauto. apply nth_set_other. intros Hx. apply Hj. left. lia.
    + intros HN c' v' [[= <- <-]|Hin]; inversion HN as [|? ? Hnin HN']; subst.
      * split; [exact Hc|]. rewrite H1; [apply nth_set_same; lia|]. rewrite Z2Nat.id by lia. exact Hnin.
      * apply H2; assumption.
Qed.
Lemma puts_all (A : Type) (P : A -> Prop) (cvs : list (Z * A)) : forall l r, puts l cvs = Ok r ->
  Forall P l -> Forall (fun cv => P (snd cv)) cvs -> Forall P r.
Proof.
  induction cvs as [|[c v] cvs IH]; intros l r E Hl Hc; [injection E as <-; exact Hl|].
  rewrite puts_cons in E. destruct (upd l c v) as [l'|] eqn:Eu; cbn [bind] in E; [|discriminate].
  apply upd_inv in Eu. destruct Eu as [Hr ->]. inversion Hc; subst. apply (IH _ _ E); [|assumption].
  clear -Hl H1. cbn in H1. revert Hl. generalize (Z.to_nat c) as i. induction l as [|x l IH]; intros [|i] Hl; cbn; auto; inversion Hl; subst; constructor; auto.
Qed.
Lemma put1_puts (A : Type) (l : list A) ix vals : put1 l ix vals = puts l (combine ix vals).
Proof. reflexivity. Qed.

Lemma map_fst_combine (A B : Type) (l : list A) : forall (l' : list B), (length l <= length l')%nat -> map fst (combine l l') = l.
Proof. induction l as [|x l IH]; intros [|y l'] H; cbn in *; try lia; [reflexivity..|]. f_equal. apply IH. lia. Qed.
Lemma map_snd_combine (A B : Type) (l : list A) : forall (l' : list B), (length l' <= length l)%nat -> map snd (combine l l') = l'.
Proof. induction l as [|x l IH]; intros [|y l'] H; cbn in *; try lia; [reflexivity..|]. f_equal. apply IH. lia. Qed.
Lemma combine_map_map (A B C : Type) (f : A -> B) (g : A -> C) l : combine (map f l) (map g l) = map (fun x => (f x, g x)) l.
Proof. induction l as [|x l IH]; cbn; [reflexivity|]. f_equal. exact IH. Qed.

(** ** index_put on two dimensions works row by row *)
Definition puts2 {A} (m : list (list A)) (l : list (Z * Z * A)) : res (list (list A)) :=
  mfold (fun acc cv => row <- idx acc (fst (fst cv)) ;; row' <- upd row (snd (fst cv)) (snd cv) ;; upd acc (fst (fst cv)) row') l m.
Lemma put2_puts2 (A : Type) (m : list (list A)) ix vals : put2 m ix vals = puts2 m (combine ix vals).
Proof. reflexivity. Qed.
(** the entries of row [i] *)
Definition of_row {A} (i : nat) (l : list (Z * Z * A)) : list (Z * A) :=
  map (fun e => (snd (fst e), snd e)) (filter (fun e => fst (fst e) =? Z.of_nat i) l).
Lemma puts2_cons (A : Type) (m : list (list A)) x y v l :
  puts2 m ((x, y, v) :: l) = (row <- idx m x ;; row' <- upd row y v ;; m' <- upd m x row' ;; puts2 m' l).
Proof.
  unfold puts2. cbn [mfold fst snd]. destruct (idx m x) as [row|]; cbn [bind]; [|reflexivity].
  destruct (upd row y v) as [row'|]; cbn [bind]; [|reflexivity]. reflexivity.
Qed.
Lemma puts2_rows (A : Type) (l : list (Z * Z * A)) : forall m m', puts2 m l = Ok m' ->
  length m' = length m /\ forall i row, nth_error m i = Some row -> exists row', nth_error m' i = Some row' /\ puts row (of_row i l) = Ok row'.
Proof.
  induction l as [|[[x y] v] l IH]; intros m m' E.
  - injection E as <-. split; [reflexivity|]. intros i row Er. exists row. split; [exact Er|reflexivity].
  - rewrite puts2_cons in E. destruct (idx m x) as [row|] eqn:Ei; cbn [bind] in E; [|discriminate].
    destruct (upd row y v) as [row'|] eqn:Eu; cbn [bind] in E; [|discriminate].
    destruct (upd m x row') as [m1|] eqn:Em; cbn [bind] in E; [|discriminate].
    apply (idx_inv _ []) in Ei. destruct Ei as [Hx Erow]. apply upd_inv in Em. destruct Em as [_ ->].
    destruct (IH _ _ E) as [HL HR]. rewrite set_nth_len in HL. split; [exact HL|].
    intros i r0 Er0. unfold of_row. cbn [filter fst]. destruct (Z.eqb_spec x (Z.of_nat i)) as [->|Hne].
    + cbn [map fst snd]. rewrite puts_cons. rewrite Nat2Z.id in *.
      assert (r0 = row) as ->. { rewrite Erow. symmetry. apply nth_error_nth. exact Er0. }
      rewrite Eu. cbn [bind]. apply HR. rewrite nth_error_nth' with (d := []) by (rewrite set_nth_len; lia).
      rewrite nth_set_same by lia. reflexivity.
    + apply HR. assert (Z.to_nat x <> i) by lia. assert (i < length m)%nat by (apply nth_error_Some; congruence).
      rewrite nth_error_nth' with (d := []) by (rewrite set_nth_len; lia). rewrite nth_set_other by assumption.
      f_equal. apply nth_error_nth. exact Er0.
Qed.
Lemma puts2_ok (A : Type) (l : list (Z * Z * A)) k : forall m, (forall row, In row m -> length row = k) ->
  Forall (fun e => 0 <= fst (fst e) < Z.of_nat (length m) /\ 0 <= snd (fst e) < Z.of_nat k) l ->
  exists m', puts2 m l = Ok m' /\ length m' = length m /\ (forall row, In row m' -> length row = k).
Proof.
  induction l as [|[[x y] v] l IH]; intros m Hm H; [exists m; split; [reflexivity|auto]|].
  inversion H as [|? ? [Hx Hy] Hr]; subst. cbn [fst snd] in *. rewrite puts2_cons, (idx_ok _ []) by lia. cbn [bind].
  assert (HL : length (nth (Z.to_nat x) m []) = k) by (apply Hm; apply nth_In; lia).
  rewrite upd_ok by (rewrite HL; lia). cbn [bind]. rewrite upd_ok by lia. cbn [bind].
  destruct (IH (set_nth m (Z.to_nat x) (set_nth (nth (Z.to_nat x) m []) (Z.to_nat y) v))) as (m' & E & HL' & HR).
  - intros row Hin. apply In_nth with (d := []) in Hin. destruct Hin as (i & Hi & <-). rewrite set_nth_len in Hi.
    destruct (Nat.eq_dec (Z.to_nat x) i) as [<-|Hne].
    + rewrite nth_set_same by lia. rewrite set_nth_len. exact HL.
    + rewrite nth_set_other by exact Hne. apply Hm. apply nth_In. exact Hi.
  - rewrite set_nth_len. exact Hr.
  - rewrite set_nth_len in HL'. eauto.
Qed.

(** the entries written by numbered lists *)
Lemma of_row_numbered (A : Type) (ls : list (list (Z * A))) : forall k i,
  of_row i (flat_map (fun ic => map (fun cv => ((Z.of_nat (fst ic), fst cv), snd cv)) (snd ic)) (combine (seq k (length ls)) ls))
  = if (k <=? i)%nat then nth (i - k) ls [] else [].
Proof.
  assert (Hsame : forall j (l : list (Z * A)), of_row j (map (fun cv => ((Z.of_nat j, fst cv), snd cv)) l) = l).
  { intros j l. unfold of_row. induction l as [|[c v] l IHl]; [reflexivity|]. cbn [map filter fst snd].
    rewrite Z.eqb_refl. cbn [map fst snd]. f_equal. exact IHl. }
  assert (Hother : forall j j' (l : list (Z * A)), j <> j' -> of_row j (map (fun cv => ((Z.of_nat j', fst cv), snd cv)) l) = []).
  { intros j j' l Hne. unfold of_row. induction l as [|[c v] l IHl]; [reflexivity|]. cbn [map filter fst snd].
    destruct (Z.eqb_spec (Z.of_nat j') (Z.of_nat j)); [lia|]. exact IHl. }
  induction ls as [|l ls IH]; intros k i; cbn [length seq combine flat_map].
  - destruct (k <=? i)%nat; [destruct (i - k)%nat|]; reflexivity.
  - cbn [fst snd]. unfold of_row. rewrite filter_app, map_app. fold (of_row i (map (fun cv => (Z.of_nat k, fst cv, snd cv)) l)).
    match goal with |- _ ++ map _ (filter _ ?x) = _ => fold (of_row i x) end. rewrite IH.
    destruct (Nat.leb_spec k i); destruct (Nat.leb_spec (S k) i); try lia.
    + rewrite Hother by lia. replace (i - k)%nat with (S (i - S k)) by lia. reflexivity.
    + replace i with k by lia. rewrite Hsame, Nat.sub_diag, app_nil_r. reflexivity.
    + rewrite Hother by lia. reflexivity.
Qed.

(** ** rows and elements *)
Lemma firstn_skipn_len (A : Type) (l : list A) i k n : length l = (n * k)%nat -> (i < n)%nat -> length (firstn k (skipn (i * k) l)) = k.
Proof. intros HL Hi. rewrite firstn_length, skipn_length, HL. nia. Qed.
Lemma select0_row (A : Type) (t : tensor A) n k i : shape t = [n; k] -> (i < n)%nat ->
  select0 t i = Ok (mkT [k] (firstn k (skipn (i * k) (data t)))).
Proof.
  intros Hs Hi. unfold select0. rewrite Hs. destruct (Nat.ltb_spec i n); [|lia]. unfold numel. cbn [fold_right]. rewrite Nat.mul_1_r. reflexivity.
Qed.
Lemma rows_len (A : Type) (t : tensor A) n k : shape t = [n; k] -> length (rows t) = n.
Proof. intros Hs. unfold rows. rewrite Hs, map_length, seq_length. reflexivity. Qed.
Lemma rows_nth (A : Type) (t : tensor A) n k i : shape t = [n; k] -> (i < n)%nat ->
  nth_error (rows t) i = Some (firstn k (skipn (i * k) (data t))).
Proof.
  intros Hs Hi. unfold rows. rewrite Hs. rewrite nth_error_map.
  rewrite nth_error_nth' with (d := 0%nat) by (rewrite seq_length; exact Hi). rewrite seq_nth by exact Hi. reflexivity.
Qed.
Lemma rows_row_len (A : Type) (t : tensor A) n k : shape t = [n; k] -> length (data t) = (n * k)%nat ->
  forall row, In row (rows t) -> length row = k.
Proof.
  intros Hs HL row Hin. unfold rows in Hin. rewrite Hs in Hin. apply in_map_iff in Hin. destruct Hin as (i & <- & Hi).
  apply in_seq in Hi. apply (firstn_skipn_len _ _ _ _ n); [exact HL|lia].
Qed.
Lemma concat_len (A : Type) (m : list (list A)) k : (forall row, In row m -> length row = k) -> length (concat m) = (length m * k)%nat.
Proof.
  induction m as [|r m IH]; intros H; [reflexivity|]. cbn [concat length]. rewrite app_length, (H r) by (left; reflexivity).
  rewrite IH by (intros row Hr; apply H; right; exact Hr). lia.
Qed.
(** the rows of a tensor built from rows *)
Lemma concat_row (A : Type) (m : list (list A)) k : (forall row, In row m -> length row = k) -> forall i row,
  nth_error m i = Some row -> firstn k (skipn (i * k) (concat m)) = row.
Proof.
  intros H. induction m as [|r m IH]; intros [|i] row E; cbn [nth_error] in E; try discriminate.
  - injection E as ->. cbn [Nat.mul skipn concat]. rewrite firstn_app. rewrite (H row) by (left; reflexivity).
    rewrite Nat.sub_diag. cbn [firstn]. rewrite app_nil_r. apply firstn_all2. rewrite (H row) by (left; reflexivity). reflexivity.
  - cbn [concat]. replace (S i * k)%nat with (length r + i * k)%nat by (rewrite (H r) by (left; reflexivity); reflexivity).
    rewrite skipn_app. rewrite skipn_all2 by lia. replace (length r + i * k - length r)%nat with (i * k)%nat by lia. cbn [app].
    apply IH; [|exact E]. intros row' Hr. apply H. right. exact Hr.
Qed.
Lemma double_value_1 (A : Type) (d : A) (t : tensor A) k i : shape t = [k] -> length (data t) = k -> (i < k)%nat ->
  double_value t [i] = Ok (nth i (data t) d).
Proof.
  intros Hs HL Hi. cbn [double_value]. unfold select0. rewrite Hs. destruct (Nat.ltb_spec i k); [|lia]. cbn [bind].
  unfold item. cbn [data numel fold_right]. rewrite Nat.mul_1_r.
  destruct (skipn i (data t)) as [|x l] eqn:E.
  - apply (f_equal (@length A)) in E. rewrite skipn_length in E. cbn in E. lia.
  - cbn [firstn]. f_equal. rewrite <- (firstn_skipn i (data t)). rewrite E.
    rewrite app_nth2; rewrite firstn_length; [|lia]. replace (i - Nat.min i (length (data t)))%nat with 0%nat by lia. reflexivity.
Qed.
(** reading one element of a [1 x k] matrix with a single index fails *)
Lemma double_value_2 (A : Type) (t : tensor A) k i : shape t = [1%nat; k] -> length (data t) = k -> (2 <= k)%nat ->
  exists p, double_value t [i] = Panic p /\ p <> PFuel.
Proof.
  intros Hs HL Hk. cbn [double_value]. unfold select0. rewrite Hs. destruct (Nat.ltb_spec i 1).
  - cbn [bind]. unfold item. cbn [data numel fold_right]. rewrite Nat.mul_1_r.
    replace i with 0%nat by lia. cbn [Nat.mul skipn]. rewrite firstn_all2 by lia.
    destruct (data t) as [|x [|y l]]; cbn in HL; try lia. eexists. split; [reflexivity|discriminate].
  - cbn [bind]. eexists. split; [reflexivity|discriminate].
Qed.
