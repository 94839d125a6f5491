(** * EncApi: the codec properties at API level, re-exported by Prop_Enc.v. *)
From Verif Require Import Base BaseFacts BgModel BgSpec BgStep BgGen BgTurn BgReach BgWitness EncModel EncProof.
From Coq Require Import Permutation.
Require Import ZifyBool ZifyNat.
Ltac Zify.zify_post_hook ::= Z.div_mod_to_equations.

(** A decoded step [(f, t)] uses die [d]: it enters from the bar on the entry point of [d],
    or starts on a point and goes [d] forward, or leaves the board if [d] reaches past it. *)
Definition step_by (s : side) (d : Z) (a : action) : Prop :=
  (fst a = -1 /\ snd a = entry s d)
  \/ (on_board (fst a)
      /\ ((on_board (fst a + sign s * d) /\ snd a = fst a + sign s * d)
          \/ (~ on_board (fst a + sign s * d) /\ snd a = -1))).
Lemma dec_step_by s f d : die d -> 0 <= f <= 24 -> step_by s d (dec_step s f d).
Proof.
  intros Hd Hf. unfold die in Hd. unfold step_by, dec_step, on_board.
  destruct s; cbn [sign entry Z.eqb Pos.eqb andb]; rewrite ?andb_true_r, ?andb_false_r; cbn [fst snd].
  - destruct (Z.eqb_spec f 24) as [->|Hn]; [left; split; [reflexivity|kill_ifs; lia]|right; kill_ifs; lia].
  - destruct (Z.eqb_spec f 24) as [->|Hn].
    + left. cbn. split; [reflexivity|]. kill_ifs; lia.
    + right. destruct (Z.eqb_spec f 24); [contradiction|]. kill_ifs; lia.
Qed.

Theorem C07_roll_order_lemma : forall pr b r0 r1 p sp i acts c,
  bg_valid_moves pr (mkBg b (r1, r0) p sp i) = bg_valid_moves pr (mkBg b (r0, r1) p sp i)
  /\ encode_trait pr (mkBg b (r1, r0) p sp i) acts = encode_trait pr (mkBg b (r0, r1) p sp i) acts
  /\ decode_trait pr (mkBg b (r1, r0) p sp i) c = decode_trait pr (mkBg b (r0, r1) p sp i) c
  /\ encode_inherent pr (mkBg b (r1, r0) p sp i) acts = encode_inherent pr (mkBg b (r0, r1) p sp i) acts
  /\ decode_inherent pr (mkBg b (r1, r0) p sp i) c = decode_inherent pr (mkBg b (r0, r1) p sp i) c.
Proof.
  intros pr b r0 r1 p sp i acts c. rewrite !encode_agree, !decode_agree.
  pose proof (valid_moves_swap pr (mkBg b (r0, r1) p sp i)) as H1.
  pose proof (encode_swap pr (mkBg b (r0, r1) p sp i) acts) as H2.
  pose proof (decode_swap pr (mkBg b (r0, r1) p sp i) c) as H3. unfold swap_roll in *. cbn [roll fst snd bgboard player second bgid] in *. auto.
Qed.

Theorem C16_round_trip_lemma : forall pr st s mvs a,
  WF (bgboard st) -> rolled (roll st) -> mover st s -> bg_valid_moves pr st = Ok mvs -> In a mvs ->
  (exists c, encode_trait pr st a = Ok c /\ decode_trait pr st c = Ok a)
  /\ (exists c, encode_inherent pr st a = Ok c /\ decode_inherent pr st c = Ok a).
Proof.
  intros pr st s mvs a HW HR HM E Hin.
  destruct (codec_round_trip pr st s mvs a HW HR HM E Hin) as (c & Ee & Hc & Ed).
  split; exists c; rewrite ?encode_agree, ?decode_agree; auto.
Qed.

Theorem C16_empty_move_lemma : forall pr st, encode_trait pr st [] = Ok 1351 /\ decode_trait pr st 1351 = Ok [].
Proof.
  intros. split; reflexivity.
Qed.

Theorem C17_codes_lemma : forall pr st s mvs,
  WF (bgboard st) -> rolled (roll st) -> mover st s -> bg_valid_moves pr st = Ok mvs ->
  (forall a, In a mvs -> exists c, encode_trait pr st a = Ok c /\ 0 <= c < 1351)
  /\ (forall a a' c, In a mvs -> In a' mvs -> encode_trait pr st a = Ok c -> encode_trait pr st a' = Ok c -> a = a')
  /\ NoDup (map (encode_trait pr st) mvs).
Proof.
  intros pr st s mvs HW HR HM E.
  assert (HR2 : forall a, In a mvs -> exists c, encode_trait pr st a = Ok c /\ 0 <= c < 1351 /\ decode_trait pr st c = Ok a).
  { intros a Hin. destruct (codec_round_trip pr st s mvs a HW HR HM E Hin) as (c & Ee & Hc & Ed).
    exists c. rewrite encode_agree, decode_agree. auto. }
  assert (HI : forall a a' c, In a mvs -> In a' mvs -> encode_trait pr st a = Ok c -> encode_trait pr st a' = Ok c -> a = a').
  { intros a a' c Ha Ha' Ea Ea'. destruct (HR2 a Ha) as (c1 & E1 & _ & D1). destruct (HR2 a' Ha') as (c2 & E2 & _ & D2).
    assert (c1 = c) by congruence. assert (c2 = c) by congruence. subst. congruence. }
  split; [intros a Ha; destruct (HR2 a Ha) as (c & ? & ? & _); eauto|]. split; [exact HI|].
  destruct (valid_moves_spec pr st s HW HR HM) as (mvs' & E' & _ & _ & Hd & _). rewrite E in E'. injection E' as <-.
  apply NoDup_map_inv in Hd.
  assert (HOK : forall a, In a mvs -> exists c, encode_trait pr st a = Ok c).
  { intros a Ha. destruct (HR2 a Ha) as (c & ? & _). eauto. }
  assert (HI2 : forall a a', In a mvs -> In a' mvs -> encode_trait pr st a = encode_trait pr st a' -> (exists c, encode_trait pr st a = Ok c) -> a = a').
  { intros a a' Ha Ha' Ee (c & Ec). apply (HI a a' c); auto; congruence. }
  revert Hd. assert (HK : forall l, incl l mvs -> (forall a, In a l -> exists c, encode_trait pr st a = Ok c) -> NoDup l -> NoDup (map (encode_trait pr st) l)).
  { induction l as [|a l IH]; intros Hincl Hok Hnd; cbn; [constructor|]. inversion Hnd as [|? ? Hn Hnd']; subst. constructor.
    - intros Hin. apply in_map_iff in Hin. destruct Hin as (a' & Ee & Ha'). apply Hn.
      rewrite (HI2 a a'); auto; [apply Hincl; now left|apply Hincl; now right|apply Hok; now left].
    - apply IH; [intros x Hx; apply Hincl; now right|intros x Hx; apply Hok; now right|auto]. }
  intros Hd. apply HK; [apply incl_refl| |auto]. intros a Ha. exact (HOK a Ha).
Qed.

Theorem C17_empty_code_unique_lemma : forall pr st s mvs a,
  WF (bgboard st) -> rolled (roll st) -> mover st s -> bg_valid_moves pr st = Ok mvs -> In a ([] :: mvs) ->
  (encode_trait pr st a = Ok 1351 <-> a = []).
Proof.
  intros pr st s mvs a HW HR HM E [<-|Hin]; [split; reflexivity|].
  destruct (codec_round_trip pr st s mvs a HW HR HM E Hin) as (c & Ee & Hc & Ed). rewrite encode_agree, Ee. split.
  - intros [= ->]. lia.
  - intros ->. cbn in Ee. injection Ee as <-. lia.
Qed.

Theorem C18_decode_total_lemma : forall pr st s c, rolled (roll st) -> mover st s -> 0 <= c < 1351 ->
  (c mod 676) mod 26 <> 25 ->
  exists d e, Permutation [d; e] [fst (roll st); snd (roll st)]
    /\ ((exists a, decode_trait pr st c = Ok [a] /\ step_by s d a)
        \/ (exists a b, decode_trait pr st c = Ok [a; b] /\ step_by s d a /\ step_by s e b)).
Proof.
  intros pr st s c HR HM Hc Hn. rewrite decode_agree.
  pose proof (decode_total pr st s c HR HM Hc) as HT. cbv zeta in HT.
  pose proof (high_low_spec _ HR) as HL. destruct (high_low (roll st)) as [hi lo].
  destruct HL as (Hle & Hhi & Hlo & HP). destruct HT as (H1 & H2 & ->).
  assert (Eb : (if c <? 676 then c else c - 676) = c mod 676) by (destruct (Z.ltb_spec c 676); lia).
  rewrite Eb in *. set (f1 := (c mod 676) mod 26) in *. set (f2 := c mod 676 / 26) in *.
  exists (if c <? 676 then hi else lo), (if c <? 676 then lo else hi). split.
  { destruct (c <? 676); [exact HP|]. etransitivity; [apply perm_swap|exact HP]. }
  assert (Hd1 : die (if c <? 676 then hi else lo)) by (destruct (c <? 676); auto).
  assert (Hd2 : die (if c <? 676 then lo else hi)) by (destruct (c <? 676); auto).
  clearbody f1 f2. destruct (Z.eqb_spec f2 25) as [Ef|Ef].
  - left. eexists. split; [reflexivity|]. apply dec_step_by; [auto|lia].
  - right. eexists. eexists. split; [reflexivity|]. split; apply dec_step_by; auto; lia.
Qed.

Theorem C18_bad_codes_lemma : forall pr st s c, rolled (roll st) -> mover st s -> 0 <= c < 1351 ->
  (c mod 676) mod 26 = 25 ->
  exists a rest, decode_trait pr st c = Ok (a :: rest) /\ fst a = 25 /\ (length rest <= 1)%nat.
Proof.
  intros pr st s c HR HM Hc Hn. rewrite decode_agree.
  pose proof (decode_total pr st s c HR HM Hc) as HT. cbv zeta in HT.
  destruct (high_low (roll st)) as [hi lo]. destruct HT as (H1 & H2 & ->).
  assert (Eb : (if c <? 676 then c else c - 676) = c mod 676) by (destruct (Z.ltb_spec c 676); lia).
  rewrite Eb in *. rewrite Hn. destruct (_ =? 25); (eexists; eexists; split; [reflexivity|]); cbn; auto.
Qed.

Theorem C19_codecs_agree_lemma : forall pr st acts c,
  encode_trait pr st acts = encode_inherent pr st acts /\ decode_trait pr st c = decode_inherent pr st c.
Proof.
  intros. split; [apply encode_agree|apply decode_agree].
Qed.
