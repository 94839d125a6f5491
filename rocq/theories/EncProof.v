(** * EncProof: the action codec. *)
From Verif Require Import Base BaseFacts BgModel BgSpec BgStep BgGen BgTurn BgReach EncModel.
From Coq Require Import Permutation.
Require Import ZifyBool ZifyNat.
Ltac Zify.zify_post_hook ::= Z.div_mod_to_equations.

Lemma u32_ok pr z : 0 <= z < 4294967296 -> u32 pr z = Ok z.
Proof. intros H. unfold u32. destruct (Z.leb_spec 0 z), (Z.ltb_spec z 4294967296); cbn; auto; lia. Qed.

(** ** The two copies agree *)
Lemma encode_agree pr st acts : encode_trait pr st acts = encode_inherent pr st acts.
Proof. destruct acts as [|a [|b [|c l]]]; reflexivity. Qed.
Lemma decode_agree pr st c : decode_trait pr st c = decode_inherent pr st c.
Proof.
  unfold decode_trait, decode_inherent. destruct (c =? 1351); [reflexivity|].
  destruct (high_low (roll st)) as [high low]. cbv zeta.
  destruct (c <? 676);
  repeat match goal with
    | |- context [bind (i8 pr ?z) _] => destruct (i8 pr z) eqn:?; cbn [bind]; try reflexivity
    end.
Qed.

(** ** A step together with the die that pays for it *)
(** [pays s d m]: the code's view of a step: exact moves go exactly [d],
    collecting moves need at most [d]. *)
Inductive pays (s : side) (d : Z) : mv -> Prop :=
| pays_enter : pays s d (Enter (entry s d))
| pays_move i : on_board i -> on_board (i + sign s * d) -> pays s d (Move i (i + sign s * d))
| pays_off i : on_board i -> pip s i <= 6 -> pip s i <= d -> pays s d (Off i).
Lemma gen_pays s d q m : die d -> gen s d q m -> pays s d m.
Proof.
  intros Hd H. destruct H as [| |i HA Hi Hm Hp|i HA Hi Hm Hv Ht Hn]; [constructor|constructor; auto| |].
  - constructor; auto; [now apply HA|lia].
  - constructor; auto; [now apply HA|]. destruct s; cbn [visits] in Hv; lia.
Qed.

(** code of a source: 0..23 or 24 for the bar *)
Definition src_code (m : mv) : Z := match m with Enter _ => 24 | Move f _ => f | Off f => f end.
(** smallest die for a step *)
Definition need (s : side) (d : Z) (m : mv) : Z := match m with Off i => pip s i | _ => d end.
Definition exact (m : mv) : bool := match m with Off _ => false | _ => true end.

Lemma min_roll_ok pr s d m : die d -> pays s d m -> min_roll pr (act_of m) = Ok (need s d m).
Proof.
  intros Hd H. unfold die in Hd. destruct H as [|i Hi Ho|i Hi Hp Hle]; cbn [act_of need min_roll].
  - destruct s; cbn [entry].
    + destruct (Z.ltb_spec (24 - d) 6); [lia|]. destruct (Z.ltb_spec 17 (24 - d)); [|lia]. cbn [Z.eqb Pos.eqb andb].
      rewrite i8_ok by lia. cbn [bind]. unfold i8_as_u8. rewrite wrap_u8_id by lia. f_equal; lia.
    + destruct (Z.ltb_spec (d - 1) 6); [|lia]. cbn [Z.eqb Pos.eqb andb].
      rewrite i8_ok by lia. cbn [bind]. unfold i8_as_u8. rewrite wrap_u8_id by lia. f_equal; lia.
  - unfold on_board in *. destruct (Z.eqb_spec i (-1)); [lia|]. destruct (Z.eqb_spec (i + sign s * d) (-1)); [lia|].
    cbn [andb]. rewrite i8_ok by (destruct s; cbn [sign]; lia). cbn [bind]. f_equal. destruct s; cbn [sign]; lia.
  - unfold on_board in *. destruct (Z.eqb_spec i (-1)); [lia|]. cbn [Z.eqb Pos.eqb andb].
    destruct s; cbn [pip] in *.
    + destruct (Z.ltb_spec i 6); [|lia]. rewrite i8_ok by lia. cbn [bind]. unfold i8_as_u8. rewrite wrap_u8_id by lia. f_equal; lia.
    + destruct (Z.ltb_spec i 6); [lia|]. destruct (Z.ltb_spec 17 i); [|lia].
      rewrite i8_ok by lia. cbn [bind]. unfold i8_as_u8. rewrite wrap_u8_id by lia. f_equal; lia.
Qed.
Lemma enc_step_ok pr mul low s d m : die d -> pays s d m -> 1 <= mul <= 26 ->
  enc_step pr mul low (need s d m) (act_of m) = Ok (mul * src_code m, exact m && (d =? low)).
Proof.
  intros Hd H Hmul. unfold die in Hd. destruct H as [|i Hi Ho|i Hi Hp Hle]; cbn [act_of need enc_step src_code exact andb].
  - destruct s; cbn [entry].
    + destruct (Z.ltb_spec (24 - d) 6); [lia|]. destruct (Z.ltb_spec 17 (24 - d)); [|lia]. cbn [Z.eqb Pos.eqb andb].
      rewrite i8_ok by lia. cbn [bind]. unfold i8_as_u8. rewrite wrap_u8_id by lia. f_equal. f_equal. lia.
    + destruct (Z.ltb_spec (d - 1) 6); [|lia]. cbn [Z.eqb Pos.eqb andb].
      rewrite i8_ok by lia. cbn [bind]. unfold i8_as_u8. rewrite wrap_u8_id by lia. f_equal. f_equal. lia.
  - unfold on_board in *. destruct (Z.eqb_spec i (-1)); [lia|]. destruct (Z.eqb_spec (i + sign s * d) (-1)); [lia|].
    cbn [andb]. unfold i8_as_u32. rewrite Z.mod_small by lia. rewrite u32_ok by nia. reflexivity.
  - unfold on_board in *. destruct (Z.eqb_spec i (-1)); [lia|]. cbn [Z.eqb Pos.eqb andb].
    unfold i8_as_u32. rewrite Z.mod_small by lia. rewrite u32_ok by nia. cbn [bind].
    destruct s; cbn [pip] in *; [destruct (Z.ltb_spec i 6); [reflexivity|lia]|].
    destruct (Z.ltb_spec i 6); [lia|]. destruct (Z.ltb_spec 17 i); [reflexivity|lia].
Qed.
Lemma src_code_range s d m : die d -> pays s d m -> 0 <= src_code m <= 24.
Proof. intros Hd H. destruct H; cbn; unfold on_board in *; lia. Qed.

(** What one half of [decode] computes from a source code and a die. *)
Definition dec_step (s : side) (f d : Z) : action :=
  let f := if (f =? 24) && (sign s =? 1) then -1 else f in
  let t := f + d * sign s in
  ((if f =? 24 then -1 else f), (if (24 <=? t) || (t <=? -1) then -1 else t)).
Lemma dec_step_exact s d m : die d -> pays s d m -> exact m = true -> dec_step s (src_code m) d = act_of m.
Proof.
  intros Hd H He. unfold die in Hd. destruct H as [|i Hi Ho|i Hi Hp Hle]; cbn in He; [| |discriminate].
  - unfold dec_step, act_of, src_code. destruct s; cbn [entry sign Z.eqb Pos.eqb andb]; f_equal; kill_ifs; lia.
  - unfold dec_step, act_of, src_code. unfold on_board in *.
    destruct (Z.eqb_spec i 24); [lia|]. cbn [andb].
    destruct (Z.eqb_spec i 24); [lia|]. f_equal. kill_ifs; lia.
Qed.
Lemma dec_step_off s d d' i : pays s d (Off i) -> pip s i <= d' -> dec_step s (src_code (Off i)) d' = act_of (Off i).
Proof.
  intros H Hle. inversion H as [| |i' Hi Hp Hd]; subst. unfold dec_step, act_of, src_code. unfold on_board in *.
  destruct (Z.eqb_spec i 24); [lia|]. cbn [andb]. destruct (Z.eqb_spec i 24); [lia|]. f_equal.
  destruct s; cbn [pip sign] in *; kill_ifs; lia.
Qed.

Lemma high_low_spec rl : rolled rl ->
  let (hi, lo) := high_low rl in lo <= hi /\ die hi /\ die lo /\ Permutation [hi; lo] (dice_of rl).
Proof.
  destruct rl as [a b]. intros (Ha & Hb). cbn [fst snd] in *. unfold high_low, dice_of. cbn [fst snd].
  destruct (Z.ltb_spec b a); cbn; (split; [lia|]); (split; [auto|]); (split; [auto|]); [reflexivity|apply perm_swap].
Qed.

Lemma conv_range (b : bool) f n : 0 <= f <= n -> -1 <= (if b then -1 else f) <= n.
Proof. destruct b; lia. Qed.

(** decode of an assembled code *)
Lemma decode_two pr st s f1 f2 (hrf : bool) :
  rolled (roll st) -> mover st s -> 0 <= f1 <= 24 -> 0 <= f2 <= 24 ->
  let (hi, lo) := high_low (roll st) in
  decode_inherent pr st (f1 + 26 * f2 + (if hrf then 0 else 676)) =
  Ok [dec_step s f1 (if hrf then hi else lo); dec_step s f2 (if hrf then lo else hi)].
Proof.
  intros HR HM H1 H2. pose proof (high_low_spec _ HR) as HL. unfold decode_inherent.
  destruct (high_low (roll st)) as [hi lo]. destruct HL as (Hle & Hhi & Hlo & _). unfold die in *.
  unfold mover in HM. rewrite HM.
  set (c := f1 + 26 * f2 + (if hrf then 0 else 676)).
  assert (Ec : c = f1 + 26 * f2 + (if hrf then 0 else 676)) by reflexivity. clearbody c.
  destruct (Z.eqb_spec c 1351); [destruct hrf; lia|].
  assert (Eh : (c <? 676) = hrf) by (destruct hrf; lia). rewrite Eh.
  assert (Eb : (if hrf then c else c - 676) = f1 + 26 * f2) by (destruct hrf; lia). rewrite Eb.
  assert ((f1 + 26 * f2) mod 26 = f1) as -> by lia.
  assert ((f1 + 26 * f2) / 26 = f2) as -> by lia.
  unfold u32_as_i8, u8_as_i8. rewrite !wrap_i8_id by lia. cbv zeta.
  set (g1 := if (f1 =? 24) && (sign s =? 1) then -1 else f1).
  set (g2 := if (f2 =? 24) && (sign s =? 1) then -1 else f2).
  assert (-1 <= g1 <= 24) by (unfold g1; now apply conv_range).
  assert (-1 <= g2 <= 24) by (unfold g2; now apply conv_range).
  assert (sign s = 1 \/ sign s = -1) as Hs by (destruct s; auto).
  rewrite (i8_ok pr ((if hrf then hi else lo) * sign s)) by (destruct hrf, Hs as [-> | ->]; lia). cbn [bind].
  rewrite (i8_ok pr (g1 + (if hrf then hi else lo) * sign s)) by (destruct hrf, Hs as [-> | ->]; lia). cbn [bind].
  rewrite (i8_ok pr ((if hrf then lo else hi) * sign s)) by (destruct hrf, Hs as [-> | ->]; lia). cbn [bind].
  rewrite (i8_ok pr (g2 + (if hrf then lo else hi) * sign s)) by (destruct hrf, Hs as [-> | ->]; lia). cbn [bind].
  destruct (Z.eqb_spec f2 25); [lia|]. unfold dec_step. fold g1 g2. reflexivity.
Qed.
Lemma decode_one pr st s f1 (hrf : bool) :
  rolled (roll st) -> mover st s -> 0 <= f1 <= 24 ->
  let (hi, lo) := high_low (roll st) in
  decode_inherent pr st (f1 + 650 + (if hrf then 0 else 676)) =
  Ok [dec_step s f1 (if hrf then hi else lo)].
Proof.
  intros HR HM H1. pose proof (high_low_spec _ HR) as HL. unfold decode_inherent.
  destruct (high_low (roll st)) as [hi lo]. destruct HL as (Hle & Hhi & Hlo & _). unfold die in *.
  unfold mover in HM. rewrite HM.
  set (c := f1 + 650 + (if hrf then 0 else 676)).
  assert (Ec : c = f1 + 650 + (if hrf then 0 else 676)) by reflexivity. clearbody c.
  destruct (Z.eqb_spec c 1351); [destruct hrf; lia|].
  assert (Eh : (c <? 676) = hrf) by (destruct hrf; lia). rewrite Eh.
  assert (Eb : (if hrf then c else c - 676) = f1 + 650) by (destruct hrf; lia). rewrite Eb.
  assert ((f1 + 650) mod 26 = f1) as -> by lia.
  assert ((f1 + 650) / 26 = 25) as -> by lia.
  unfold u32_as_i8, u8_as_i8. rewrite !wrap_i8_id by lia. cbv zeta.
  set (g1 := if (f1 =? 24) && (sign s =? 1) then -1 else f1).
  assert (-1 <= g1 <= 24) by (unfold g1; now apply conv_range).
  assert (sign s = 1 \/ sign s = -1) as Hs by (destruct s; auto).
  rewrite (i8_ok pr ((if hrf then hi else lo) * sign s)) by (destruct hrf, Hs as [-> | ->]; lia). cbn [bind].
  rewrite (i8_ok pr (g1 + (if hrf then hi else lo) * sign s)) by (destruct hrf, Hs as [-> | ->]; lia). cbn [bind].
  rewrite (i8_ok pr ((if hrf then lo else hi) * sign s)) by (destruct hrf, Hs as [-> | ->]; lia). cbn [bind].
  cbn [Z.eqb Pos.eqb andb].
  rewrite (i8_ok pr (25 + (if hrf then lo else hi) * sign s)) by (destruct hrf, Hs as [-> | ->]; lia). cbn [bind].
  unfold dec_step. fold g1. reflexivity.
Qed.

(** The codes of one- and two-step moves. *)
Definition hrf1 (s : side) (lo d : Z) (m : mv) : bool := lo <? need s d m.
Definition hrf2 (s : side) (lo d e : Z) (m n : mv) : bool :=
  if exact m && (d =? lo) then false else if exact n && (e =? lo) then true
  else need s e n <=? need s d m.
Lemma need_pos s d m : die d -> pays s d m -> 1 <= need s d m <= d.
Proof.
  intros Hd H. unfold die in Hd. destruct H as [| |i Hi Hp Hle]; cbn; try lia.
  split; [|auto]. unfold on_board in Hi. destruct s; cbn; lia.
Qed.
Lemma encode_one pr st s d m :
  rolled (roll st) -> die d -> pays s d m ->
  encode_inherent pr st [act_of m] =
  Ok (src_code m + 650 + (if hrf1 s (snd (high_low (roll st))) d m then 0 else 676)).
Proof.
  intros HR Hd Hm. unfold encode_inherent. rewrite (min_roll_ok pr s d) by auto. cbn [bind].
  rewrite enc_step_ok by (auto; lia). cbn [bind]. pose proof (src_code_range _ _ _ Hd Hm).
  rewrite u32_ok by lia. cbn [bind]. rewrite u32_ok by lia. cbn [bind negb Z.eqb].
  fold (hrf1 s (snd (high_low (roll st))) d m). destruct (hrf1 s (snd (high_low (roll st))) d m).
  - f_equal. lia.
  - rewrite u32_ok by lia. f_equal. lia.
Qed.
Lemma encode_two pr st s d e m n :
  rolled (roll st) -> die d -> die e -> pays s d m -> pays s e n ->
  encode_inherent pr st [act_of m; act_of n] =
  Ok (src_code m + 26 * src_code n + (if hrf2 s (snd (high_low (roll st))) d e m n then 0 else 676)).
Proof.
  intros HR Hd He Hm Hn. unfold encode_inherent.
  rewrite (min_roll_ok pr s d m) by auto. cbn [bind].
  rewrite (min_roll_ok pr s e n) by auto. cbn [bind].
  rewrite enc_step_ok by (auto; lia). cbn [bind].
  pose proof (src_code_range _ _ _ Hd Hm). pose proof (src_code_range _ _ _ He Hn).
  rewrite u32_ok by lia. cbn [bind].
  rewrite enc_step_ok by (auto; lia). cbn [bind].
  rewrite u32_ok by lia. cbn [bind].
  pose proof (need_pos _ _ _ He Hn) as Hnp. destruct (Z.eqb_spec (need s e n) 0); [lia|]. cbn [negb].
  fold (hrf2 s (snd (high_low (roll st))) d e m n).
  destruct (hrf2 s (snd (high_low (roll st))) d e m n).
  - f_equal. lia.
  - rewrite u32_ok by lia. f_equal. lia.
Qed.

Lemma round_trip_one pr st s d m :
  rolled (roll st) -> mover st s -> In d (dice_of (roll st)) -> pays s d m ->
  exists c, encode_inherent pr st [act_of m] = Ok c /\ 0 <= c < 1351 /\ decode_inherent pr st c = Ok [act_of m].
Proof.
  intros HR HM Hin Hm.
  assert (Hd : die d) by (destruct HR, Hin as [<-|[<-|[]]]; auto).
  eexists. split; [apply (encode_one pr st s d m); auto|]. pose proof (src_code_range _ _ _ Hd Hm) as Hsc.
  split; [destruct (hrf1 _ _ _ _); lia|].
  pose proof (decode_one pr st s (src_code m) (hrf1 s (snd (high_low (roll st))) d m) HR HM Hsc) as HD.
  pose proof (high_low_spec _ HR) as HL. destruct (high_low (roll st)) as [hi lo]. cbn [snd] in *.
  rewrite HD. f_equal. f_equal. destruct HL as (Hle & Hhi & Hlo & HP).
  assert (d = hi \/ d = lo) as Hdd.
  { apply (Permutation_in _ (Permutation_sym HP)) in Hin. destruct Hin as [<-|[<-|[]]]; auto. }
  unfold hrf1. destruct (exact m) eqn:He.
  - assert (need s d m = d) as -> by (destruct m; auto; discriminate).
    destruct (Z.ltb_spec lo d).
    + assert (d = hi) as <- by lia. now apply dec_step_exact.
    + assert (d = lo) as <- by lia. now apply dec_step_exact.
  - destruct m as [| |i]; try discriminate. cbn [need]. pose proof (need_pos _ _ _ Hd Hm) as Hp. cbn [need] in Hp.
    destruct (Z.ltb_spec lo (pip s i)); apply (dec_step_off s d); auto; lia.
Qed.
Lemma round_trip_two pr st s d e m n :
  rolled (roll st) -> mover st s -> Permutation [d; e] (dice_of (roll st)) -> pays s d m -> pays s e n ->
  exists c, encode_inherent pr st [act_of m; act_of n] = Ok c /\ 0 <= c < 1351
            /\ decode_inherent pr st c = Ok [act_of m; act_of n].
Proof.
  intros HR HM HP Hm Hn. pose proof (high_low_spec _ HR) as HL. 
  assert (Hdd : let (hi, lo) := high_low (roll st) in (d = hi /\ e = lo) \/ (d = lo /\ e = hi)).
  { destruct (high_low (roll st)) as [hi lo]. destruct HL as (_ & _ & _ & HP2).
    assert (P : Permutation [d; e] [hi; lo]) by (etransitivity; [exact HP|now apply Permutation_sym]).
    apply Permutation_length_2 in P. intuition. }
  assert (Hd : die d /\ die e).
  { destruct (high_low (roll st)) as [hi lo]. destruct HL as (_ & ? & ? & _). destruct Hdd as [(-> & ->)|(-> & ->)]; auto. }
  destruct Hd as (Hd & He).
  eexists. split; [apply (encode_two pr st s d e m n); auto|].
  pose proof (src_code_range _ _ _ Hd Hm) as Hs1. pose proof (src_code_range _ _ _ He Hn) as Hs2.
  split; [destruct (hrf2 _ _ _ _ _ _); lia|].
  pose proof (decode_two pr st s (src_code m) (src_code n) (hrf2 s (snd (high_low (roll st))) d e m n) HR HM Hs1 Hs2) as HD.
  destruct (high_low (roll st)) as [hi lo]. cbn [snd] in *. rewrite HD.
  destruct HL as (Hle & Hhi & Hlo & _).
  pose proof (need_pos _ _ _ Hd Hm) as Nm. pose proof (need_pos _ _ _ He Hn) as Nn.
  assert (X : forall m', exact m' = true -> forall x, need s x m' = x) by (intros []; try reflexivity; discriminate).
  unfold hrf2. destruct (exact m) eqn:Em, (exact n) eqn:En; cbn [andb];
    rewrite ?(X m Em) in *; rewrite ?(X n En) in *.
  - (* exact, exact *)
    destruct (Z.eqb_spec d lo).
    + f_equal. f_equal; [now subst d; apply dec_step_exact|]. f_equal. assert (e = hi) as <- by lia. now apply dec_step_exact.
    + assert (e = lo) as -> by lia. rewrite Z.eqb_refl. assert (d = hi) as -> by lia.
      f_equal. f_equal; [now apply dec_step_exact|]. f_equal. now apply dec_step_exact.
  - (* exact, off *)
    destruct n as [| |j]; try discriminate. cbn [need] in *.
    destruct (Z.eqb_spec d lo).
    + f_equal. f_equal; [now subst d; apply dec_step_exact|]. f_equal. apply (dec_step_off s e); auto. lia.
    + assert (d = hi) as -> by lia. destruct (Z.leb_spec (pip s j) hi); [|lia].
      f_equal. f_equal; [now apply dec_step_exact|]. f_equal. apply (dec_step_off s e); auto. lia.
  - (* off, exact *)
    destruct m as [| |i]; try discriminate. cbn [need] in *.
    destruct (Z.eqb_spec e lo).
    + f_equal. f_equal; [apply (dec_step_off s d); auto; lia|]. f_equal. subst e. now apply dec_step_exact.
    + assert (e = hi) as -> by lia. destruct (Z.leb_spec hi (pip s i)); [lia|].
      f_equal. f_equal; [apply (dec_step_off s d); auto; lia|]. f_equal. now apply dec_step_exact.
  - (* off, off *)
    destruct m as [| |i], n as [| |j]; try discriminate. cbn [need] in *.
    destruct (Z.leb_spec (pip s j) (pip s i)); f_equal; (f_equal; [apply (dec_step_off s d); auto; lia|]);
      f_equal; apply (dec_step_off s e); auto; lia.
Qed.

(** A generated move is one or two paid steps. *)
Lemma gplay_pays s d0 d1 q ms :
  die d0 -> die d1 -> ms <> [] -> gplay s [d0; d1] q ms ->
  (exists d m, In d [d0; d1] /\ ms = [m] /\ pays s d m)
  \/ (exists d e m n, Permutation [d; e] [d0; d1] /\ ms = [m; n] /\ pays s d m /\ pays s e n).
Proof.
  intros H0 H1 Hne H.
  assert (HD : Forall die [d0; d1]) by (constructor; [auto|constructor; [auto|constructor]]).
  inversion H as [|l1 d l2 q' m ms' Hm Hp Hdice]; subst; [contradiction|].
  rewrite <- Hdice in HD. destruct (Forall_remove _ _ _ _ HD) as (HD' & Hd).
  inversion Hp as [|k1 e k2 q'' n ms'' Hn Hp' Hdice']; subst.
  - left. exists d, m. split; [apply in_app_iff; right; now left|]. split; [auto|].
    eapply gen_pays; eauto.
  - right. assert (He : die e).
    { rewrite <- Hdice' in HD'. now destruct (Forall_remove _ _ _ _ HD'). }
    assert (Hlen : length (l1 ++ d :: l2) = 2%nat) by (rewrite Hdice; reflexivity).
    assert (Hlen' : length (k1 ++ e :: k2) = 1%nat).
    { rewrite Hdice'. rewrite app_length in *. cbn [length] in Hlen. lia. }
    destruct k1 as [|x k1]; [|destruct k1; cbn in Hlen'; discriminate].
    destruct k2 as [|x k2]; [|cbn in Hlen'; discriminate].
    cbn [app] in *. inversion Hp' as [|j1 x j2 ? ? ? ? ? Hj]; subst.
    + exists d, e, m, n. split; [|split; [auto|split; eapply gen_pays; eauto]].
      rewrite Hdice'. apply Permutation_middle.
    + exfalso. destruct j1; discriminate.
Qed.

Theorem codec_round_trip pr st s mvs a :
  WF (bgboard st) -> rolled (roll st) -> mover st s -> bg_valid_moves pr st = Ok mvs -> In a mvs ->
  exists c, encode_inherent pr st a = Ok c /\ 0 <= c < 1351 /\ decode_inherent pr st c = Ok a.
Proof.
  intros HW HR HM E Hin.
  destruct (valid_moves_spec pr st s HW HR HM) as (mvs' & E' & Hs & _). rewrite E in E'. injection E' as <-.
  destruct (Hs a Hin) as (ms & Hne & -> & Hp).
  pose proof HR as (H0 & H1).
  destruct (gplay_pays s (fst (roll st)) (snd (roll st)) _ ms H0 H1 Hne Hp)
    as [(d & m & Hd & -> & Hm)|(d & e & m & n & HPm & -> & Hm & Hn)].
  - now apply (round_trip_one pr st s d).
  - now apply (round_trip_two pr st s d e).
Qed.

(** Roll order does not matter. *)
Definition swap_roll (st : bg) : bg :=
  mkBg (bgboard st) (snd (roll st), fst (roll st)) (player st) (second st) (bgid st).
Lemma high_low_swap a b : high_low (b, a) = high_low (a, b).
Proof. unfold high_low. cbn. destruct (Z.ltb_spec a b), (Z.ltb_spec b a); try lia; auto. f_equal; lia. Qed.
Lemma all_moves_swap a b : all_moves (b, a) = all_moves (a, b).
Proof. unfold all_moves. destruct (Z.ltb_spec a b), (Z.ltb_spec b a); try lia; auto. assert (a = b) as -> by lia. reflexivity. Qed.
Lemma valid_moves_swap pr st : bg_valid_moves pr (swap_roll st) = bg_valid_moves pr st.
Proof.
  destruct st as [b [r0 r1] p s i]. unfold bg_valid_moves, swap_roll. cbn [roll fst snd bgboard player].
  rewrite (all_moves_swap r0 r1), (andb_comm (r1 =? 0)). reflexivity.
Qed.
Lemma encode_swap pr st acts : encode_inherent pr (swap_roll st) acts = encode_inherent pr st acts.
Proof.
  destruct st as [b [r0 r1] p s i]. unfold encode_inherent, swap_roll. cbn [roll fst snd].
  rewrite high_low_swap. reflexivity.
Qed.
Lemma decode_swap pr st c : decode_inherent pr (swap_roll st) c = decode_inherent pr st c.
Proof.
  destruct st as [b [r0 r1] p s i]. unfold decode_inherent, swap_roll. cbn [roll fst snd player].
  rewrite high_low_swap. reflexivity.
Qed.

(** decode on the whole action space: the code [c] splits into two sources and an order. *)
Theorem decode_total pr st s c :
  rolled (roll st) -> mover st s -> 0 <= c < 1351 ->
  let base := if c <? 676 then c else c - 676 in
  let f1 := base mod 26 in let f2 := base / 26 in
  let (hi, lo) := high_low (roll st) in
  let d1 := if c <? 676 then hi else lo in let d2 := if c <? 676 then lo else hi in
  0 <= f1 <= 25 /\ 0 <= f2 <= 25 /\
  decode_inherent pr st c =
  Ok (if f2 =? 25 then [dec_step s f1 d1] else [dec_step s f1 d1; dec_step s f2 d2]).
Proof.
  intros HR HM Hc. cbv zeta. pose proof (high_low_spec _ HR) as HL. unfold decode_inherent.
  destruct (high_low (roll st)) as [hi lo]. destruct HL as (Hle & Hhi & Hlo & _). unfold die in *.
  unfold mover in HM. rewrite HM.
  set (base := if c <? 676 then c else c - 676).
  assert (0 <= base <= 675) by (unfold base; destruct (Z.ltb_spec c 676); lia).
  split; [lia|]. split; [lia|].
  destruct (Z.eqb_spec c 1351); [lia|].
  unfold u32_as_i8, u8_as_i8. rewrite !wrap_i8_id by lia. cbv zeta.
  set (f1 := base mod 26) in *. set (f2 := base / 26) in *.
  assert (0 <= f1 <= 25) by (unfold f1; lia). assert (0 <= f2 <= 25) by (unfold f2; lia). clearbody f1 f2.
  set (g1 := if (f1 =? 24) && (sign s =? 1) then -1 else f1).
  set (g2 := if (f2 =? 24) && (sign s =? 1) then -1 else f2).
  assert (-1 <= g1 <= 25) by (unfold g1; now apply conv_range).
  assert (-1 <= g2 <= 25) by (unfold g2; now apply conv_range).
  set (hrf := c <? 676). clearbody hrf.
  assert (sign s = 1 \/ sign s = -1) as Hs by (destruct s; auto).
  rewrite (i8_ok pr ((if hrf then hi else lo) * sign s)) by (destruct hrf, Hs as [-> | ->]; lia). cbn [bind].
  rewrite (i8_ok pr (g1 + (if hrf then hi else lo) * sign s)) by (destruct hrf, Hs as [-> | ->]; lia). cbn [bind].
  rewrite (i8_ok pr ((if hrf then lo else hi) * sign s)) by (destruct hrf, Hs as [-> | ->]; lia). cbn [bind].
  rewrite (i8_ok pr (g2 + (if hrf then lo else hi) * sign s)) by (destruct hrf, Hs as [-> | ->]; lia). cbn [bind].
  unfold dec_step. fold g1 g2. destruct (f2 =? 25); reflexivity.
Qed.
