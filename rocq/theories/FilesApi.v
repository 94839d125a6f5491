(** * FilesApi: finding and loading training data (C51). *)
From Coq Require Import Permutation Ascii DecimalString DecimalNat.
From Verif Require Import Base BaseFacts F32 Tensor TrainModel TrainSpec TrainProof TrainApi FilesModel FilesSpec.
Local Open Scope string_scope.

Lemma prefix_app pat s : prefix pat s = true <-> exists b, s = pat ++ b.
Proof.
  revert s. induction pat as [|c pat IH]; intros s.
  - split; [intros _; exists s; reflexivity|]. destruct s; reflexivity.
  - destruct s as [|d s]; [split; [discriminate|intros [b H]; discriminate H]|]. cbn [append prefix]. destruct (Ascii.ascii_dec c d) as [<-|Hne].
    + rewrite IH. split; intros [b H]; exists b; [rewrite H; reflexivity|injection H as ->; reflexivity].
    + split; [discriminate|]. intros [b H]. injection H as H1 _. congruence.
Qed.
Lemma contains_spec pat s : contains pat s = true <-> exists a b, s = a ++ pat ++ b.
Proof.
  induction s as [|c s IH]; cbn [contains]; rewrite orb_true_iff, prefix_app.
  - split; [intros [[b H]|H]; [exists "", b; exact H|discriminate H]|]. intros (a & b & H). left. destruct a; [exists b; exact H|discriminate H].
  - rewrite IH. split.
    + intros [[b H]|(a & b & H)]; [exists "", b; exact H|]. exists (String c a), b. cbn. rewrite H. reflexivity.
    + intros (a & b & H). destruct a as [|d a]; [left; exists b; exact H|]. right. injection H as _ H. exists a, b. exact H.
Qed.
Lemma has_sp_b name : has_sp name <-> contains "sp" name = true.
Proof. symmetry. apply contains_spec. Qed.
Lemma no_sp_b name : ~ has_sp name <-> contains "sp" name = false.
Proof. rewrite has_sp_b. apply not_true_iff_false. Qed.

Section NodeInd.
  Variable P : node -> Prop.
  Hypothesis Hf : forall p, P (File p).
  Hypothesis Hd : forall b es, Forall (fun e => P (snd e)) es -> P (Dir b es).
  Fixpoint node_rec' (n : node) : P n :=
    match n with
    | File p => Hf p
    | Dir b es => Hd b es ((fix go (es : list (string * node)) : Forall (fun e => P (snd e)) es :=
        match es with [] => Forall_nil _ | e :: es' => Forall_cons e (node_rec' (snd e)) (go es') end) es)
    end.
End NodeInd.

Fixpoint sps (n : node) : list path :=
  match n with
  | File _ => []
  | Dir _ es => flat_map (fun e => if contains "sp" (fst e) then [[fst e]] else map (cons (fst e)) (sps (snd e))) es
  end.
Lemma walk_prefix n : forall dir res, exists l rest ok, sps n = (l ++ rest)%list
  /\ get_all_paths_rec dir n res = ((res ++ map (app dir) l)%list, ok) /\ (ok = true -> rest = []) /\ (listable n -> ok = true).
Proof.
  induction n as [p|b es IH] using node_rec'; intros dir res.
  - exists [], [], true. cbn. rewrite app_nil_r. auto.
  - destruct b.
    2:{ exists [], (sps (Dir false es)), false. cbn [get_all_paths_rec map app]. rewrite app_nil_r. repeat split; [discriminate|]. intros H. inversion H. }
    cbn [get_all_paths_rec sps].
    match goal with |- context [ ?f es res ] => set (go := f) end.
    assert (Hgo : forall es, Forall (fun e => forall dir res, exists l rest ok, sps (snd e) = (l ++ rest)%list
      /\ get_all_paths_rec dir (snd e) res = ((res ++ map (app dir) l)%list, ok) /\ (ok = true -> rest = []) /\ (listable (snd e) -> ok = true)) es ->
      forall res, exists l rest ok, flat_map (fun e => if contains "sp" (fst e) then [[fst e]] else map (cons (fst e)) (sps (snd e))) es = (l ++ rest)%list
      /\ go es res = ((res ++ map (app dir) l)%list, ok) /\ (ok = true -> rest = []) /\ (Forall (fun e => listable (snd e)) es -> ok = true)).
    { clear es IH res. induction es as [|[name m] es IHes]; intros HF res.
      - exists [], [], true. cbn. rewrite app_nil_r. auto.
      - inversion HF as [|? ? Hm HF']; subst. cbn [flat_map fst snd] in *. unfold go; fold go. destruct (contains "sp" name) eqn:Ec.
        + destruct (IHes HF' (res ++ [dir ++ [name]])%list) as (l & rest & ok & E1 & E2 & E3 & E4). exists ([name] :: l), rest, ok. rewrite E1, E2. cbn [map app]. rewrite <- app_assoc. cbn [app]. repeat split; auto.
          intros HL. inversion HL; auto.
        + destruct (Hm (dir ++ [name])%list res) as (l & rest & ok & E1 & E2 & E3 & E4). rewrite E2. destruct ok.
          * rewrite (E3 eq_refl), app_nil_r in E1. destruct (IHes HF' (res ++ map (app (dir ++ [name])) l)%list) as (l' & rest' & ok' & E1' & E2' & E3' & E4'). exists (map (cons name) l ++ l')%list, rest', ok'.
            rewrite E1, E1', E2', <- !app_assoc, map_app, map_map. repeat split; auto.
            -- do 3 f_equal. apply map_ext. intros q. rewrite <- app_assoc. reflexivity.
            -- intros HL. inversion HL; auto.
          * exists (map (cons name) l), (map (cons name) rest ++ flat_map (fun e => if contains "sp" (fst e) then [[fst e]] else map (cons (fst e)) (sps (snd e))) es)%list, false.
            rewrite E1, map_app, <- app_assoc. repeat split; auto; [|discriminate|].
            -- do 2 f_equal. rewrite map_map. apply map_ext. intros q. rewrite <- app_assoc. reflexivity.
            -- intros HL. inversion HL as [|? ? HL1 HL2]; subst. exact (E4 HL1). }
    destruct (Hgo es IH res) as (l & rest & ok & E1 & E2 & E3 & E4). exists l, rest, ok. repeat split; auto. intros HL. inversion HL. auto.
Qed.
Lemma sps_spec n : forall p, In p (sps n) <-> outermost_sp n p.
Proof.
  induction n as [x|b es IH] using node_rec'; intros p; cbn [sps].
  - split; [contradiction|]. intros (q & name & m & -> & Hat & _). inversion Hat as [? E|]; subst. destruct q; discriminate.
  - rewrite in_flat_map. split.
    + intros ([name m] & Hin & Hp). cbn [fst snd] in Hp. rewrite Forall_forall in IH. specialize (IH _ Hin). cbn [snd] in IH. destruct (contains "sp" name) eqn:Ec.
      * destruct Hp as [<-|[]]. exists [], name, m. repeat split; [|apply has_sp_b, Ec|constructor]. apply at_below with m; [exact Hin|constructor].
      * apply in_map_iff in Hp. destruct Hp as (p' & <- & Hp'). apply IH in Hp'. destruct Hp' as (q & name' & m' & -> & Hat & Hs & Hq).
        exists (name :: q), name', m'. repeat split; [apply at_below with m; assumption|exact Hs|constructor; [apply no_sp_b, Ec|exact Hq]].
    + intros (q & name & m & -> & Hat & Hs & Hq). rewrite Forall_forall in IH. inversion Hat as [? E|b' es' name' m' p' x' Hin Hat' E1 E2 E3]; subst; [destruct q; discriminate|].
      exists (name', m'). split; [exact Hin|]. cbn [fst snd]. destruct q as [|n0 q]; cbn [app] in *.
      * injection E2 as <- ->. apply has_sp_b in Hs. rewrite Hs. left. reflexivity.
      * injection E2 as <- ->. inversion Hq as [|? ? Hn Hq']; subst. apply no_sp_b in Hn. rewrite Hn. apply in_map. apply (IH _ Hin). exists q, name, m. repeat split; assumption.
Qed.
Lemma NoDup_flat_map (A B : Type) (f : A -> list B) l : NoDup l -> (forall x, In x l -> NoDup (f x)) -> (forall x y z, In x l -> In y l -> In z (f x) -> In z (f y) -> x = y) -> NoDup (flat_map f l).
Proof.
  induction l as [|x l IH]; intros Hl Hf Hd; [constructor|]. inversion Hl as [|? ? Hx Hl']; subst. cbn.
  assert (HN : forall (a b : list B), NoDup a -> NoDup b -> (forall z, In z a -> In z b -> False) -> NoDup (a ++ b)).
  { clear. induction a as [|z a IHa]; intros b Ha Hb Hab; [exact Hb|]. inversion Ha as [|? ? Hz Ha']; subst. cbn. constructor.
    - intros Hin. apply in_app_or in Hin. destruct Hin as [Hin|Hin]; [contradiction|]. apply (Hab z); [left; reflexivity|exact Hin].
    - apply IHa; auto. intros z' H1 H2. apply (Hab z'); [right; exact H1|exact H2]. }
  apply HN; [apply Hf; left; reflexivity|apply IH; auto|].
  - intros y Hy. apply Hf. right. exact Hy.
  - intros a b z Ha Hb. apply Hd; right; assumption.
  - intros z Hz1 Hz2. apply in_flat_map in Hz2. destruct Hz2 as (y & Hy & Hz2). assert (x = y) by (apply (Hd x y z); auto; [left; reflexivity|right; exact Hy]). subst. contradiction.
Qed.
Lemma NoDup_map_inj (A B : Type) (f : A -> B) l : (forall x y, f x = f y -> x = y) -> NoDup l -> NoDup (map f l).
Proof. intros Hi. induction 1 as [|x l Hx Hl IH]; [constructor|]. cbn. constructor; [|exact IH]. intros H. apply in_map_iff in H. destruct H as (y & E & Hy). apply Hi in E. subst. contradiction. Qed.
Lemma sps_nodup n : tree n -> NoDup (sps n).
Proof.
  induction n as [x|b es IH] using node_rec'; intros HT; cbn [sps]; [constructor|]. inversion HT as [|? ? Hnd HF]; subst. rewrite Forall_forall in IH, HF. apply NoDup_flat_map.
  - apply NoDup_map_inv in Hnd. exact Hnd.
  - intros [name m] Hin. cbn [fst snd]. destruct (contains "sp" name); [repeat constructor; intros []|]. apply NoDup_map_inj; [intros a c E; injection E; auto|]. apply (IH _ Hin), (HF _ Hin).
  - intros [n1 m1] [n2 m2] z H1 H2 Hz1 Hz2. cbn [fst snd] in *.
    assert (Hh : forall name m, In z (if contains "sp" name then [[name]] else map (cons name) (sps m)) -> hd_error z = Some name).
    { intros name m Hz. destruct (contains "sp" name); [destruct Hz as [<-|[]]; reflexivity|]. apply in_map_iff in Hz. destruct Hz as (p & <- & _). reflexivity. }
    pose proof (Hh _ _ Hz1) as E1. pose proof (Hh _ _ Hz2) as E2. rewrite E1 in E2. injection E2 as <-.
    clear -Hnd H1 H2. induction es as [|[n' m'] es IH]; [contradiction|]. cbn [map fst] in Hnd. inversion Hnd as [|? ? Hn Hnd']; subst. destruct H1 as [E1|H1], H2 as [E2|H2].
    + congruence.
    + injection E1 as -> ->. exfalso. apply Hn. apply in_map_iff. exists (n1, m2). auto.
    + injection E2 as -> ->. exfalso. apply Hn. apply in_map_iff. exists (n1, m1). auto.
    + apply IH; assumption.
Qed.

(** ** C51 *)
Theorem C51_found_lemma : forall n dir, tree n -> listable n ->
  exists ps, get_all_paths_rec dir n [] = (map (app dir) ps, true) /\ NoDup ps /\ forall p, In p ps <-> outermost_sp n p.
Proof.
  intros n dir HT HL. destruct (walk_prefix n dir []) as (l & rest & ok & E1 & E2 & E3 & E4). exists l. rewrite (E3 (E4 HL)), app_nil_r in E1. subst l.
  rewrite E2, (E4 HL). split; [reflexivity|]. split; [apply sps_nodup, HT|apply sps_spec].
Qed.
Theorem C51_unreadable_lemma : forall n dir, tree n -> exists ps ok, get_all_paths_rec dir n [] = (map (app dir) ps, ok) /\ NoDup ps
  /\ (forall p, In p ps -> outermost_sp n p) /\ (ok = true -> forall p, outermost_sp n p -> In p ps).
Proof.
  intros n dir HT. destruct (walk_prefix n dir []) as (l & rest & ok & E1 & E2 & E3 & _). exists l, ok. split; [exact E2|].
  pose proof (sps_nodup n HT) as Hnd. rewrite E1 in Hnd. split.
  - clear -Hnd. induction l as [|x l IH]; [constructor|]. cbn in Hnd. inversion Hnd as [|? ? Hx Hnd']; subst. constructor; [|apply IH, Hnd']. intros H. apply Hx, in_or_app. left. exact H.
  - split.
    + intros p Hp. apply sps_spec. rewrite E1. apply in_or_app. left. exact Hp.
    + intros Hok p Hp. apply sps_spec in Hp. rewrite E1, (E3 Hok), app_nil_r in Hp. exact Hp.
Qed.
(** training on the directory of a single self-play *)
Lemma flat_dir es : Forall (fun e => ~ has_sp (fst e) /\ exists x, snd e = File x) es -> sps (Dir true es) = [] /\ listable (Dir true es).
Proof.
  intros H. split.
  - cbn [sps]. induction H as [|[name m] es [H1 [x Hx]] HF IH]; [reflexivity|]. cbn [flat_map fst snd] in *. apply no_sp_b in H1. rewrite H1, Hx. exact IH.
  - constructor. eapply Forall_impl; [|exact H]. intros [name m] [_ [x Hx]]. cbn in *. rewrite Hx. constructor.
Qed.
Theorem C51_single_self_play_lemma : forall pr W optimise root bs (w : W) id l sp es r, 1 <= bs ->
  open_path root ["run-" ++ id; "lrn-" ++ l; "sp-" ++ sp] = Some (Dir true es) ->
  Forall (fun e => ~ has_sp (fst e) /\ exists x, snd e = File x) es ->
  train_command pr W optimise root bs w (Some id) (Some l) (Some sp) r = Ok (w, r).
Proof.
  intros pr W optimise root bs w id l sp es r Hbs Ho Hes. unfold train_command. cbn [data_path bind]. rewrite Ho.
  destruct (flat_dir es Hes) as [Hs HL]. destruct (walk_prefix (Dir true es) ["run-" ++ id; "lrn-" ++ l; "sp-" ++ sp] []) as (l' & rest & ok & E1 & E2 & E3 & E4). rewrite E2, Hs in *.
  symmetry in E1. apply app_eq_nil in E1. destruct E1 as [-> ->]. cbn [map app mmap bind concat]. unfold train, shuffle. cbn [length Nat.sub shuffle_from]. unfold step_by.
  destruct (bs =? 0)%Z eqn:E0; [apply Z.eqb_eq in E0; lia|]. reflexivity.
Qed.
(** which data the command trains on *)
Theorem C51_trained_lemma : forall pr W optimise root bs (w : W) run_id learn self_play r p n, tree n -> listable n ->
  data_path run_id learn self_play = Ok p -> open_path root p = Some n ->
  exists ps, NoDup ps /\ (forall q, In q ps <-> outermost_sp n q)
    /\ train_command pr W optimise root bs w run_id learn self_play r
       = (datas <- mmap (fun q => load_path root (p ++ q)%list) ps ;; '(w', _, r') <- train pr W optimise bs w (concat datas) r ;; Ok (w', r')).
Proof.
  intros pr W optimise root bs w run_id learn self_play r p n HT HL Hp Ho. destruct (C51_found_lemma n p HT HL) as (ps & E & Hnd & Hin). exists ps. split; [exact Hnd|]. split; [exact Hin|].
  unfold train_command. rewrite Hp. cbn [bind]. rewrite Ho, E. f_equal. clear. induction ps as [|q ps IH]; [reflexivity|]. cbn [map mmap]. rewrite IH. reflexivity.
Qed.
Lemma entry_in es name m : NoDup (map fst es) -> In (name, m) es -> entry es name = Some m.
Proof.
  intros Hn Hin. induction es as [|[n' m'] es IH]; [contradiction|]. cbn [entry map fst] in *. inversion Hn as [|? ? Hx Hn']; subst. destruct (String.eqb_spec n' name) as [->|Hne].
  - destruct Hin as [E|Hin]; [injection E as ->; reflexivity|]. exfalso. apply Hx. apply in_map_iff. exists (name, m). auto.
  - destruct Hin as [E|Hin]; [injection E as E1 E2; congruence|]. apply IH; assumption.
Qed.
Lemma mmap_panic (A B : Type) (f : A -> res B) l x e : In x l -> f x = Panic e -> exists p, mmap f l = Panic p.
Proof.
  intros Hin Hx. induction l as [|y l IH]; [contradiction|]. cbn [mmap]. destruct (f y) as [b|p] eqn:Ey; cbn [bind]; [|exists p; reflexivity].
  destruct Hin as [->|Hin]; [congruence|]. destruct (IH Hin) as [p Hp]. rewrite Hp. exists p. reflexivity.
Qed.
(** a run whose id has sp in it spoils training on all runs *)
Theorem C51_run_id_lemma : forall pr W optimise es bs (w : W) id m r, tree (Dir true es) -> listable (Dir true es) ->
  In ("run-" ++ id, m) es -> has_sp id -> data_files m = None ->
  exists p, train_command pr W optimise (Dir true es) bs w None None None r = Panic p.
Proof.
  intros pr W optimise es bs w run m r HT HL Hin (a & b & Hid) Hd. destruct (C51_trained_lemma pr W optimise (Dir true es) bs w None None None r [] (Dir true es) HT HL eq_refl eq_refl) as (ps & Hnd & Hps & E). rewrite E.
  assert (Hq : In ["run-" ++ run] ps).
  { apply Hps. exists [], ("run-" ++ run), m. repeat split; [apply at_below with m; [exact Hin|constructor]| |constructor]. exists ("run-" ++ a), b. rewrite Hid. reflexivity. }
  destruct (mmap_panic _ _ (fun q => load_path (Dir true es) ([] ++ q)%list) ps ["run-" ++ run] PUnwrap Hq) as [p Hp].
  - unfold load_path. cbn [app open_path]. inversion HT as [|? ? Hn HF]; subst. rewrite (entry_in es _ m Hn Hin), Hd. reflexivity.
  - rewrite Hp. exists p. reflexivity.
Qed.
(** but the same run can be trained on alone *)
Lemma open_app n p q : open_path n (p ++ q)%list = match open_path n p with Some m => open_path m q | None => None end.
Proof. revert n. induction p as [|x p IH]; intros n; [reflexivity|]. cbn [app open_path]. destruct n as [|b es]; [reflexivity|]. destruct (entry es x); [apply IH|reflexivity]. Qed.

(** the directory of a learn iteration: [sp-0 .. sp-(n-1)] *)
Lemma sp_has_sp s : has_sp ("sp-" ++ s).
Proof. exists "", ("-" ++ s). reflexivity. Qed.
Lemma walk_all dir es : Forall (fun e => has_sp (fst e)) es -> forall acc, get_all_paths_rec dir (Dir true es) acc = ((acc ++ map (fun e => dir ++ [fst e]) es)%list, true).
Proof.
  intros H. cbn [get_all_paths_rec]. induction H as [|[name m] es H HF IH]; intros acc; [cbn; rewrite app_nil_r; reflexivity|]. cbn [fst] in H. apply has_sp_b in H. cbn [map fst].
  rewrite H, IH, <- app_assoc. reflexivity.
Qed.
Theorem C51_learn_iteration_lemma : forall pr W optimise root bs (w : W) id l es ss r,
  open_path root ["run-" ++ id; "lrn-" ++ l] = Some (Dir true es) -> NoDup (map fst es) ->
  map (fun e => data_files (snd e)) es = map Some ss -> Forall (fun e => exists k, fst e = "sp-" ++ dec k) es ->
  train_command pr W optimise root bs w (Some id) (Some l) None r
  = (datas <- mmap (fun s => load_training_data (Some s)) ss ;; '(w', _, r') <- train pr W optimise bs w (concat datas) r ;; Ok (w', r')).
Proof.
  intros pr W optimise root bs w run l es ss r Ho Hnd Hss Hes. unfold train_command. cbn [data_path bind]. rewrite Ho.
  assert (Hsp : Forall (fun e => has_sp (fst e)) es) by (eapply Forall_impl; [|exact Hes]; intros e [k ->]; apply sp_has_sp).
  rewrite (walk_all _ es Hsp). cbn [app]. f_equal.
  assert (Hload : forall e, In e es -> load_path root ["run-" ++ run; "lrn-" ++ l; fst e] = load_training_data (data_files (snd e))).
  { intros [name m] Hin. unfold load_path. change ["run-" ++ run; "lrn-" ++ l; fst (name, m)] with (app ["run-" ++ run; "lrn-" ++ l] [name]). rewrite open_app, Ho. cbn [open_path fst snd]. rewrite (entry_in es name m Hnd Hin). reflexivity. }
  clear -Hload Hss. revert ss Hss. induction es as [|e es IH]; intros ss Hss; destruct ss as [|s ss]; try discriminate Hss; [reflexivity|]. cbn [map] in Hss. injection Hss as H1 H2. cbn [map mmap].
  rewrite (Hload e (or_introl eq_refl)), H1. rewrite (IH (fun e' H => Hload e' (or_intror H)) ss H2). reflexivity.
Qed.

(** the standard layout *)
Lemma dec_inj a b : dec a = dec b -> a = b.
Proof.
  unfold dec. intros H. apply (f_equal NilEmpty.uint_of_string) in H. rewrite !NilEmpty.usu in H. injection H as H. apply Unsigned.to_uint_inj in H. exact H.
Qed.
Fixpoint has_s (s : string) : bool := match s with EmptyString => false | String c s' => Ascii.eqb c "s"%char || has_s s' end.
Lemma no_s_no_sp s : has_s s = false -> ~ has_sp s.
Proof.
  intros H (a & b & ->). induction a as [|c a IH]; cbn in H; [discriminate H|]. apply orb_false_elim in H. apply IH, H.
Qed.
Lemma dec_no_s n : has_s (dec n) = false.
Proof. unfold dec. induction (Nat.to_uint n); cbn; try reflexivity; exact IHu. Qed.
Lemma lrn_no_sp n : ~ has_sp ("lrn-" ++ dec n).
Proof. apply no_s_no_sp. cbn. apply dec_no_s. Qed.
Lemma run_no_sp s : ~ has_sp s -> ~ has_sp ("run-" ++ s).
Proof. intros H (a & b & E). destruct a as [|c1 [|c2 [|c3 [|c4 a]]]]; cbn in E; injection E; try discriminate. intros E' _ _ _ _. apply H. exists a, b. exact E'. Qed.
Lemma append_inj_l p a b : p ++ a = p ++ b -> a = b.
Proof. induction p as [|c p IH]; [auto|]. cbn. intros H. injection H. apply IH. Qed.
Lemma numbered_names A pre (f : A -> node) l : map fst (numbered pre f l) = map (fun i => pre ++ dec i) (seq 0 (length l)).
Proof.
  unfold numbered. generalize 0%nat. induction l as [|x l IH]; intros i; [reflexivity|]. cbn [length seq combine map fst]. rewrite <- IH. reflexivity.
Qed.
Lemma numbered_in A pre (f : A -> node) l e : In e (numbered pre f l) -> exists i x, nth_error l i = Some x /\ e = (pre ++ dec i, f x).
Proof.
  unfold numbered. intros H. apply in_map_iff in H. destruct H as ([i x] & <- & H). exists i, x. split; [|reflexivity].
  enough (Hg : forall l k, In (i, x) (combine (seq k (length l)) l) -> (k <= i)%nat /\ nth_error l (i - k) = Some x) by (destruct (Hg l 0%nat H) as [_ Hx]; rewrite Nat.sub_0_r in Hx; exact Hx).
  clear. induction l as [|y l IH]; intros k H; [contradiction|]. cbn [length seq combine] in H. destruct H as [E|H].
  - injection E as -> ->. rewrite Nat.sub_diag. split; [lia|reflexivity].
  - destruct (IH (S k) H) as [H1 H2]. split; [lia|]. replace (i - k)%nat with (S (i - S k)) by lia. exact H2.
Qed.
Lemma in_numbered A pre (f : A -> node) l i x : nth_error l i = Some x -> In (pre ++ dec i, f x) (numbered pre f l).
Proof.
  intros H. unfold numbered. apply in_map_iff. exists (i, x). split; [reflexivity|].
  enough (Hg : forall l k j, nth_error l j = Some x -> In ((k + j)%nat, x) (combine (seq k (length l)) l)) by (apply (Hg l 0%nat i H)).
  clear. induction l as [|y l IH]; intros k [|j] H; cbn in H; try discriminate H; cbn [length seq combine].
  - injection H as ->. left. rewrite Nat.add_0_r. reflexivity.
  - right. replace (k + S j)%nat with (S k + j)%nat by lia. apply IH, H.
Qed.
Lemma numbered_nodup A pre (f : A -> node) l : NoDup (map fst (numbered pre f l)).
Proof. rewrite numbered_names. apply NoDup_map_inj; [|apply seq_NoDup]. intros a b H. apply append_inj_l, dec_inj in H. exact H. Qed.
Lemma standard_tree runs : NoDup (map fst runs) -> tree (data_node runs) /\ listable (data_node runs).
Proof.
  intros Hn.
  assert (H1 : forall s, tree (sp_node s) /\ listable (sp_node s)).
  { intros s. split; constructor; try (repeat constructor; cbn; intuition discriminate). }
  assert (H2 : forall ss, tree (lrn_node ss) /\ listable (lrn_node ss)).
  { intros ss. unfold lrn_node. split; constructor; try apply numbered_nodup; apply Forall_forall; intros e He; apply numbered_in in He; destruct He as (i & x & _ & ->); apply H1. }
  assert (H3 : forall ls, tree (run_node ls) /\ listable (run_node ls)).
  { intros ss. unfold run_node. split; constructor; try apply numbered_nodup; apply Forall_forall; intros e He; apply numbered_in in He; destruct He as (i & x & _ & ->); apply H2. }
  unfold data_node. split; constructor.
  - rewrite map_map. cbn [fst]. rewrite <- (map_map fst (fun x => "run-" ++ x)). apply NoDup_map_inj; [intros a b; apply append_inj_l|exact Hn].
  - apply Forall_forall. intros e He. apply in_map_iff in He. destruct He as (run & <- & _). apply H3.
  - apply Forall_forall. intros e He. apply in_map_iff in He. destruct He as (run & <- & _). apply H3.
Qed.
Theorem C51_layout_lemma : forall runs, NoDup (map fst runs) -> Forall (fun run => ~ has_sp (fst run)) runs ->
  forall dir, exists ps, get_all_paths_rec dir (data_node runs) [] = (map (app dir) ps, true) /\ NoDup ps
  /\ forall p, In p ps <-> exists id lrns l ss i s, In (id, lrns) runs /\ nth_error lrns l = Some ss /\ nth_error ss i = Some s
                         /\ p = ["run-" ++ id; "lrn-" ++ dec l; "sp-" ++ dec i] /\ option_map data_files (open_path (data_node runs) p) = Some (Some s).
Proof.
  intros runs Hn Hsp dir. destruct (standard_tree runs Hn) as [HT HL]. destruct (C51_found_lemma (data_node runs) dir HT HL) as (ps & E & Hnd & Hin). exists ps. split; [exact E|]. split; [exact Hnd|].
  intros p. rewrite Hin. split.
  - intros (q & name & m & -> & Hat & Hs & Hq). unfold data_node in Hat. inversion Hat as [n E0|b es name1 m1 p1 x1 Hin1 Hat1 E1 E2 E3]; subst; [destruct q; discriminate|].
    apply in_map_iff in Hin1. destruct Hin1 as ([run lrns] & E3 & Hrun). cbn [fst snd] in E3. injection E3 as <- <-.
    rewrite Forall_forall in Hsp. pose proof (run_no_sp _ (Hsp _ Hrun)) as Hns. cbn [fst] in Hns.
    destruct q as [|q0 q]; cbn [app] in E2; injection E2 as <- ->; [contradiction|]. cbn [app] in Hat.
    unfold run_node in Hat1. inversion Hat1 as [n E0|b es name2 m2 p2 x2 Hin2 Hat2 E1 E2 E3]; subst; [destruct q; discriminate|].
    apply numbered_in in Hin2. destruct Hin2 as (l & ss & Hl & E3). injection E3 as -> ->.
    destruct q as [|q1 q]; cbn [app] in E2; injection E2 as <- ->; [exfalso; exact (lrn_no_sp l Hs)|].
    unfold lrn_node in Hat2. inversion Hat2 as [n E0|b es name3 m3 p3 x3 Hin3 Hat3 E1 E2 E3]; subst; [destruct q; discriminate|].
    apply numbered_in in Hin3. destruct Hin3 as (i & s & Hi & E3). injection E3 as -> ->.
    destruct q as [|q2 q]; cbn [app] in E2; injection E2 as <- ->.
    + exists run, lrns, l, ss, i, s. repeat split; auto. unfold data_node. cbn [app open_path].
      inversion HT as [|? ? HT1 HT2]; subst. match goal with |- context [entry ?es ?n] => replace (entry es n) with (Some (run_node lrns)) by (symmetry; apply entry_in; [exact HT1|exact (in_map (fun run => ("run-" ++ fst run, run_node (snd run))) _ _ Hrun)]) end. cbn [run_node open_path].
      match goal with |- context [entry ?es ?n] => replace (entry es n) with (Some (lrn_node ss)) by (symmetry; apply entry_in; [apply numbered_nodup|exact (in_numbered _ "lrn-" lrn_node _ _ _ Hl)]) end. cbn [lrn_node open_path].
      match goal with |- context [entry ?es ?n] => replace (entry es n) with (Some (sp_node s)) by (symmetry; apply entry_in; [apply numbered_nodup|exact (in_numbered _ "sp-" sp_node _ _ _ Hi)]) end. destruct s; reflexivity.
    + exfalso. inversion Hq as [|? ? _ Hq1]; subst. inversion Hq1 as [|? ? _ Hq2]; subst. inversion Hq2 as [|? ? Hq3 _]; subst. apply Hq3, sp_has_sp.
  - intros (run & lrns & l & ss & i & s & Hrun & Hl & Hi & -> & _). exists ["run-" ++ run; "lrn-" ++ dec l], ("sp-" ++ dec i), (sp_node s). repeat split.
    + unfold data_node. apply at_below with (run_node lrns); [exact (in_map (fun run => ("run-" ++ fst run, run_node (snd run))) _ _ Hrun)|].
      apply at_below with (lrn_node ss); [apply in_numbered, Hl|]. apply at_below with (sp_node s); [apply in_numbered, Hi|constructor].
    + apply sp_has_sp.
    + rewrite Forall_forall in Hsp. constructor; [apply run_no_sp, (Hsp _ Hrun)|]. constructor; [apply lrn_no_sp|constructor].
Qed.
