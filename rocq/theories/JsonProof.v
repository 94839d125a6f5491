(** * JsonProof: what is written can be read. *)
From Verif Require Import JsonSpec.
From Coq Require Import Arith.
Require Import ZifyBool ZifyNat.

Section Ind.
  Variable P : json -> Prop.
  Hypothesis (H1 : P JNull) (H2 : forall b, P (JBool b)) (H3 : forall z, P (JInt z)) (H4 : P JFloat) (H5 : forall s, P (JStr s))
    (H6 : forall vs, Forall P vs -> P (JArr vs)) (H7 : forall ms, Forall (fun m => P (snd m)) ms -> P (JObj ms)).
  Fixpoint json_induct (v : json) : P v :=
    match v with
    | JNull => H1 | JBool b => H2 b | JInt z => H3 z | JFloat => H4 | JStr s => H5 s
    | JArr vs => H6 vs ((fix go l : Forall P l := match l with [] => Forall_nil _ | w :: l' => Forall_cons w (json_induct w) (go l') end) vs)
    | JObj ms => H7 ms ((fix go l : Forall (fun m => P (snd m)) l := match l with [] => Forall_nil _ | w :: l' => Forall_cons w (json_induct (snd w)) (go l') end) ms)
    end.
End Ind.

(** ** strings *)
Lemma is_refl c : is c c = true.
Proof. apply Ascii.eqb_refl. Qed.
Lemma str_char c t : str_body (esc c ++ t) = cons_fst [c] (str_body t).
Proof. destruct c as [[] [] [] [] [] [] [] []]; reflexivity. Qed.
Lemma str_text s rest : str_body (flat_map esc s ++ QUOTE :: rest) = Some (s, rest).
Proof. induction s as [|c s IH]; [reflexivity|]. cbn [flat_map]. rewrite <- app_assoc, str_char, IH. reflexivity. Qed.

(** ** numbers *)
Definition stop (l : text) : Prop :=
  match l with [] => True | c :: _ => digit c = None /\ is c "."%char = false /\ is c "e"%char = false /\ is c "E"%char = false end.
Lemma digit_chr d : 0 <= d <= 9 -> digit (chr (48 + d)) = Some d.
Proof. intros H. assert (d = 0 \/ d = 1 \/ d = 2 \/ d = 3 \/ d = 4 \/ d = 5 \/ d = 6 \/ d = 7 \/ d = 8 \/ d = 9) as Hc by lia. repeat (destruct Hc as [->|Hc]; [reflexivity|]). rewrite Hc. reflexivity. Qed.
Fixpoint digs (fuel : nat) (z : Z) : list Z := match fuel with O => [] | S f => (if z <? 10 then [] else digs f (z / 10)) ++ [z mod 10] end.
Lemma digits_digs f : forall z, digits f z = map (fun d => chr (48 + d)) (digs f z).
Proof. induction f as [|f IH]; intros z; cbn [digits digs]; [reflexivity|]. rewrite map_app. destruct (z <? 10); [reflexivity|]. rewrite IH. reflexivity. Qed.
Lemma digs_range f : forall z, Forall (fun d => 0 <= d <= 9) (digs f z).
Proof.
  induction f as [|f IH]; intros z; cbn [digs]; [constructor|]. pose proof (Z.mod_pos_bound z 10). apply Forall_app. split; [destruct (z <? 10); [constructor|apply IH]|repeat constructor; lia].
Qed.
Lemma num_app ds d : num (ds ++ [d]) = num ds * 10 + d.
Proof. unfold num. rewrite fold_left_app. reflexivity. Qed.
Lemma num_digs f : forall z, 0 <= z < 10 ^ Z.of_nat f -> num (digs f z) = z.
Proof.
  induction f as [|f IH]; intros z Hz; [cbn in *; lia|]. cbn [digs]. rewrite num_app. pose proof (Z.div_mod z 10 ltac:(lia)).
  rewrite Nat2Z.inj_succ, Z.pow_succ_r in Hz by lia. destruct (Z.ltb_spec z 10) as [Hl|Hl].
  - unfold num. cbn [fold_left]. rewrite Z.mod_small by lia. lia.
  - rewrite IH; [lia|]. split; [apply Z.div_pos; lia|]. apply Z.div_lt_upper_bound; lia.
Qed.
Lemma digs_head f : forall z, 1 <= z < 10 ^ Z.of_nat f -> exists d ds, digs f z = d :: ds /\ d <> 0.
Proof.
  induction f as [|f IH]; intros z Hz; [cbn in *; lia|]. cbn [digs]. rewrite Nat2Z.inj_succ, Z.pow_succ_r in Hz by lia. destruct (Z.ltb_spec z 10) as [Hl|Hl].
  - exists z, []. rewrite Z.mod_small by lia. split; [reflexivity|lia].
  - destruct (IH (z / 10)) as (d & ds & -> & Hd); [split; [apply Z.div_le_lower_bound; lia|apply Z.div_lt_upper_bound; lia]|]. exists d, (ds ++ [z mod 10]). split; [reflexivity|exact Hd].
Qed.
Lemma span_digs ds rest : Forall (fun d => 0 <= d <= 9) ds -> (match rest with [] => True | c :: _ => digit c = None end) ->
  span (map (fun d => chr (48 + d)) ds ++ rest) = (ds, rest).
Proof.
  intros H HR. induction H as [|d ds Hd H IH]; cbn [map app].
  - destruct rest as [|c r]; [reflexivity|]. cbn [span]. rewrite HR. reflexivity.
  - cbn [span]. rewrite (digit_chr d Hd), IH. reflexivity.
Qed.
Lemma stop_span rest : stop rest -> match rest with [] => True | c :: _ => digit c = None end.
Proof. destruct rest; [auto|]. intros [H _]. exact H. Qed.
Lemma stop_frac rest : stop rest -> frac rest = Some (false, rest) /\ expo rest = Some (false, rest).
Proof. destruct rest as [|c r]; [split; reflexivity|]. intros (_ & H1 & H2 & H3). unfold frac, expo. rewrite H1, H2, H3. split; reflexivity. Qed.
Lemma number_digits (neg : bool) z rest : (if neg then 1 <= z <= 2 ^ 63 else 0 <= z < 2 ^ 64) -> stop rest ->
  number neg (digits 20 z ++ rest) = Some (JInt (if neg then - z else z), rest).
Proof.
  intros Hz Hs. assert (Hb : 0 <= z < 10 ^ Z.of_nat 20) by (change (10 ^ Z.of_nat 20) with 100000000000000000000; destruct neg; lia).
  unfold number. rewrite digits_digs, (span_digs _ _ (digs_range 20 z) (stop_span _ Hs)). pose proof (num_digs 20 z Hb) as Hn.
  destruct (digs 20 z) as [|d ds] eqn:E.
  { destruct (Z.eq_dec z 0) as [->|Hz0]; [discriminate E|]. destruct (digs_head 20 z ltac:(lia)) as (d & ds & E' & _). rewrite E in E'. discriminate E'. }
  assert (Hd : (d =? 0) && negb (match ds with [] => true | _ => false end) = false).
  { destruct (Z.eq_dec z 0) as [->|Hz0]; [injection E as <- <-; reflexivity|]. destruct (digs_head 20 z ltac:(lia)) as (d' & ds' & E' & Hd'). rewrite E in E'. injection E' as <- <-.
    replace (d =? 0) with false by lia. reflexivity. }
  rewrite Hd. destruct (stop_frac rest Hs) as [-> ->]. rewrite Hn. cbn [orb negb andb].
  destruct neg; [replace ((0 <? z) && (z <=? 2 ^ 63)) with true by lia|replace (z <? 2 ^ 64) with true by lia]; reflexivity.
Qed.

(** ** white space *)
Definition solid (l : text) : Prop := match l with [] => False | c :: _ => ws c = false end.
Lemma skip_solid l : solid l -> skip l = l.
Proof. destruct l as [|c l]; [intros []|]. cbn. intros ->. reflexivity. Qed.
Lemma skip_indent n t : skip (indent n ++ t) = skip t.
Proof. induction n as [|n IH]; [reflexivity|]. unfold indent in *. cbn [repeat concat txt list_ascii_of_string app]. cbn. exact IH. Qed.
Lemma skip_line n t : skip (NL :: indent n ++ t) = skip t.
Proof. cbn [skip]. change (ws NL) with true. cbv iota. apply skip_indent. Qed.
Lemma skip_len l : (length (skip l) <= length l)%nat.
Proof. induction l as [|c l IH]; cbn [skip length]; [lia|]. destruct (ws c); cbn [length]; lia. Qed.

(** first characters *)
Definition opens (l : text) : Prop := match l with [] => False | c :: _ => ws c = false /\ is c "]"%char = false /\ is c "}"%char = false end.
Lemma opens_solid l t : opens l -> solid (l ++ t).
Proof. destruct l; [intros []|]. cbn. tauto. Qed.
Lemma digit_opens d : 0 <= d <= 9 -> opens [chr (48 + d)].
Proof. intros H. assert (d = 0 \/ d = 1 \/ d = 2 \/ d = 3 \/ d = 4 \/ d = 5 \/ d = 6 \/ d = 7 \/ d = 8 \/ d = 9) as Hc by lia. repeat (destruct Hc as [->|Hc]; [repeat split; reflexivity|]). rewrite Hc. repeat split; reflexivity. Qed.
Lemma digits_cons z : exists d l, 0 <= d <= 9 /\ digits 20 z = chr (48 + d) :: l.
Proof.
  rewrite digits_digs. pose proof (digs_range 20 z) as H. destruct (digs 20 z) as [|d ds] eqn:E.
  - exfalso. change (digs 20 z) with ((if z <? 10 then [] else digs 19 (z / 10)) ++ [z mod 10]) in E. apply app_eq_nil in E. destruct E as [_ E]. discriminate E.
  - inversion H; subst. exists d, (map (fun d => chr (48 + d)) ds). split; [assumption|reflexivity].
Qed.
Lemma print_opens n v : opens (print n v).
Proof.
  destruct v as [|[]|z| |s|[|v vs]|[|m ms]]; try (cbn; repeat split; reflexivity). cbn [print]. unfold print_int.
  destruct (z <? 0); [cbn; repeat split; reflexivity|]. destruct (digits_cons z) as (d & l & Hd & ->). exact (digit_opens d Hd).
Qed.

(** ** arrays and objects *)
Definition reads (p : text -> option (json * text)) (k : nat) (v : json) : Prop :=
  forall l rest, stop rest -> skip l = print k v ++ rest -> p l = Some (v, rest).
Lemma stop_line n t : stop (NL :: indent n ++ t).
Proof. repeat split; reflexivity. Qed.
Lemma stop_comma t : stop (","%char :: t).
Proof. repeat split; reflexivity. Qed.
Lemma lines_len k ts : (length ts <= length (lines k ts))%nat.
Proof. induction ts as [|t [|t' ts] IH]; [cbn; lia|cbn; lia|]. change (lines k (t :: t' :: ts)) with (NL :: indent k ++ t ++ ","%char :: lines k (t' :: ts)). cbn [length] in *. rewrite !app_length. cbn [length]. lia. Qed.
Lemma items_lines p k n vs rest : vs <> [] -> Forall (reads p k) vs -> forall fuel, (length vs <= fuel)%nat ->
  items p fuel (lines k (map (print k) vs) ++ NL :: indent n ++ "]"%char :: rest) = Some (vs, rest).
Proof.
  intros Hne HF. induction HF as [|v vs Hv HF IH]; [congruence|]. intros [|fuel] Hf; [cbn in Hf; lia|]. cbn [items]. destruct vs as [|v' vs].
  - cbn [map lines]. rewrite (Hv _ (NL :: indent n ++ "]"%char :: rest)); [|apply stop_line|].
    2: { cbn [app]. rewrite <- app_assoc. rewrite skip_line. apply skip_solid. apply opens_solid, print_opens. }
    rewrite skip_line. cbn [skip]. change (ws "]"%char) with false. cbv iota. rewrite is_refl. reflexivity.
  - cbn [map]. change (lines k (print k v :: print k v' :: map (print k) vs)) with (NL :: indent k ++ print k v ++ ","%char :: lines k (map (print k) (v' :: vs))).
    rewrite (Hv _ (","%char :: lines k (map (print k) (v' :: vs)) ++ NL :: indent n ++ "]"%char :: rest)); [|apply stop_comma|].
    2: { cbn [app]. rewrite <- !app_assoc. rewrite skip_line. rewrite skip_solid; [reflexivity|]. apply opens_solid, print_opens. }
    cbn [skip]. change (ws ","%char) with false. cbv iota. change (is ","%char "]"%char) with false. change (is ","%char ","%char) with true. cbv iota.
    rewrite IH; [reflexivity|discriminate|cbn in *; lia].
Qed.
Definition print_member (k : nat) (m : text * json) : text := print_str (fst m) ++ txt ": " ++ print k (snd m).
Lemma member_head k m t : print_member k m ++ t = QUOTE :: flat_map esc (fst m) ++ QUOTE :: ":"%char :: " "%char :: print k (snd m) ++ t.
Proof. unfold print_member, print_str. cbn [app txt list_ascii_of_string]. rewrite <- !app_assoc. reflexivity. Qed.
Lemma members_lines p k n ms rest : ms <> [] -> Forall (fun m => reads p k (snd m)) ms -> forall fuel, (length ms <= fuel)%nat ->
  members p fuel (lines k (map (print_member k) ms) ++ NL :: indent n ++ "}"%char :: rest) = Some (ms, rest).
Proof.
  intros Hne HF. induction HF as [|m ms Hv HF IH]; [congruence|]. intros [|fuel] Hf; [cbn in Hf; lia|]. cbn [members]. destruct ms as [|m' ms].
  - cbn [map lines]. cbn [app]. rewrite <- app_assoc, skip_line, member_head. rewrite skip_solid by reflexivity. rewrite is_refl, str_text.
    cbn [skip]. change (ws ":"%char) with false. cbv iota. rewrite is_refl.
    rewrite (Hv _ (NL :: indent n ++ "}"%char :: rest)); [|apply stop_line|].
    2: { cbn [skip]. change (ws " "%char) with true. cbv iota. apply skip_solid. apply opens_solid, print_opens. }
    rewrite skip_line. cbn [skip]. change (ws "}"%char) with false. cbv iota. rewrite is_refl. destruct m. reflexivity.
  - cbn [map]. change (lines k (print_member k m :: print_member k m' :: map (print_member k) ms)) with (NL :: indent k ++ print_member k m ++ ","%char :: lines k (map (print_member k) (m' :: ms))).
    cbn [app]. rewrite <- !app_assoc, skip_line, member_head. rewrite skip_solid by reflexivity. rewrite is_refl, str_text.
    cbn [skip]. change (ws ":"%char) with false. cbv iota. rewrite is_refl.
    rewrite (Hv _ (","%char :: lines k (map (print_member k) (m' :: ms)) ++ NL :: indent n ++ "}"%char :: rest)); [|apply stop_comma|].
    2: { cbn [skip]. change (ws " "%char) with true. cbv iota. rewrite skip_solid; [reflexivity|]. apply opens_solid, print_opens. }
    cbn [skip]. change (ws ","%char) with false. cbv iota. change (is ","%char "}"%char) with false. change (is ","%char ","%char) with true. cbv iota.
    rewrite IH; [destruct m; reflexivity|discriminate|cbn in *; lia].
Qed.

Lemma depth_arr vs v : In v vs -> (depth v < depth (JArr vs))%nat.
Proof. induction vs as [|w vs IH]; intros H; [destruct H|]. cbn [depth fold_right] in *. destruct H as [->|H]; [lia|]. specialize (IH H). lia. Qed.
Lemma depth_obj ms m : In m ms -> (depth (snd m) < depth (JObj ms))%nat.
Proof. induction ms as [|w ms IH]; intros H; [destruct H|]. cbn [depth fold_right] in *. destruct H as [->|H]; [lia|]. specialize (IH H). lia. Qed.
Lemma value_opens d l t : skip l = t -> value d l = match t with [] => None | c :: r => value d l end.
Proof. intros H. destruct t; [|reflexivity]. destruct d as [|[|d]]; cbn [value]; rewrite H; reflexivity. Qed.

Lemma reads_value v : writable v -> forall d k, (depth v < d)%nat -> reads (value d) k v.
Proof.
  induction v as [|b|z| |s|vs IH|ms IH] using json_induct; intros HW d k Hd l rest Hs HL.
  - destruct d as [|d]; [lia|]. cbn [value]. rewrite HL. reflexivity.
  - destruct d as [|d]; [lia|]. cbn [value]. rewrite HL. destruct b; reflexivity.
  - destruct d as [|d]; [lia|]. inversion HW as [| |z' Hz| | |]; subst. cbn [value]. rewrite HL. cbn [print]. unfold print_int. destruct (Z.ltb_spec z 0) as [Hn|Hn].
    + cbn [app]. change (is "-"%char "n"%char) with false. change (is "-"%char "t"%char) with false. change (is "-"%char "f"%char) with false.
      change (is "-"%char QUOTE) with false. change (is "-"%char "-"%char) with true. cbv iota. rewrite (number_digits true (- z)) by (auto; lia). rewrite Z.opp_involutive. reflexivity.
    + assert (HN : number false (digits 20 z ++ rest) = Some (JInt z, rest)) by (apply (number_digits false z rest); [cbv beta iota; lia|exact Hs]). destruct (digits_cons z) as (dd & l' & Hdd & El). rewrite El in *. cbn [app] in *.
      assert (Hc : digit (chr (48 + dd)) = Some dd) by (apply digit_chr; exact Hdd).
      assert (Hno : is (chr (48 + dd)) "n"%char = false /\ is (chr (48 + dd)) "t"%char = false /\ is (chr (48 + dd)) "f"%char = false /\ is (chr (48 + dd)) QUOTE = false /\ is (chr (48 + dd)) "-"%char = false).
      { clear -Hdd. assert (dd = 0 \/ dd = 1 \/ dd = 2 \/ dd = 3 \/ dd = 4 \/ dd = 5 \/ dd = 6 \/ dd = 7 \/ dd = 8 \/ dd = 9) as Hc by lia.
        repeat (destruct Hc as [->|Hc]; [repeat split; reflexivity|]). rewrite Hc. repeat split; reflexivity. }
      destruct Hno as (-> & -> & -> & -> & ->). rewrite Hc. exact HN.
  - inversion HW.
  - destruct d as [|d]; [lia|]. cbn [value]. rewrite HL. cbn [print]. unfold print_str. cbn [app]. rewrite <- app_assoc. cbn [app].
    change (is QUOTE "n"%char) with false. change (is QUOTE "t"%char) with false. change (is QUOTE "f"%char) with false. rewrite is_refl, str_text. reflexivity.
  - inversion HW as [| | | |vs' HF|]; subst. destruct d as [|[|d]]; [lia|cbn in Hd; lia|]. cbn [value]. rewrite HL. destruct vs as [|v vs].
    + reflexivity.
    + change (print k (JArr (v :: vs))) with ("["%char :: lines (S k) (map (print (S k)) (v :: vs)) ++ NL :: indent k ++ ["]"%char]).
      assert (E : ("["%char :: lines (S k) (map (print (S k)) (v :: vs)) ++ NL :: indent k ++ ["]"%char]) ++ rest = "["%char :: lines (S k) (map (print (S k)) (v :: vs)) ++ NL :: indent k ++ "]"%char :: rest).
      { cbn [app]. f_equal. rewrite <- app_assoc. f_equal. cbn [app]. f_equal. rewrite <- app_assoc. reflexivity. }
      assert (HLen : (length (v :: vs) <= length l)%nat).
      { pose proof (skip_len l) as Hsk. rewrite HL in Hsk. change (print k (JArr (v :: vs))) with ("["%char :: lines (S k) (map (print (S k)) (v :: vs)) ++ NL :: indent k ++ ["]"%char]) in Hsk.
        rewrite E in Hsk. cbn [length] in Hsk. rewrite app_length in Hsk. pose proof (lines_len (S k) (map (print (S k)) (v :: vs))) as Hll. rewrite map_length in Hll. cbn [length] in Hll |- *. lia. }
      rewrite E. change (is "["%char "n"%char) with false. change (is "["%char "t"%char) with false. change (is "["%char "f"%char) with false. change (is "["%char QUOTE) with false.
      change (is "["%char "-"%char) with false. change (digit "["%char) with (@None Z). change (is "["%char "["%char) with true. cbv iota.
      assert (HO : exists c r, skip (lines (S k) (map (print (S k)) (v :: vs)) ++ NL :: indent k ++ "]"%char :: rest) = c :: r /\ is c "]"%char = false).
      { pose proof (print_opens (S k) v) as Hop. destruct (print (S k) v) as [|c0 t0] eqn:Ep; [destruct Hop|]. destruct Hop as (Hw & Hb & _).
        cbn [map]. rewrite Ep. destruct vs as [|v' vs]; cbn [map lines app]; rewrite <- app_assoc; rewrite skip_line; cbn [app skip]; rewrite Hw; eauto. }
      destruct HO as (c0 & r0 & -> & ->). rewrite items_lines; [reflexivity|discriminate| |exact HLen].
      apply Forall_forall. intros w Hw. rewrite Forall_forall in IH, HF. pose proof (depth_arr _ _ Hw) as Hdw. exact (IH w Hw (HF w Hw) (S d) (S k) ltac:(lia)).
  - inversion HW as [| | | | |ms' HF]; subst. destruct d as [|[|d]]; [lia|cbn in Hd; lia|]. cbn [value]. rewrite HL. destruct ms as [|m ms].
    + reflexivity.
    + change (print k (JObj (m :: ms))) with ("{"%char :: lines (S k) (map (print_member (S k)) (m :: ms)) ++ NL :: indent k ++ ["}"%char]).
      assert (E : ("{"%char :: lines (S k) (map (print_member (S k)) (m :: ms)) ++ NL :: indent k ++ ["}"%char]) ++ rest = "{"%char :: lines (S k) (map (print_member (S k)) (m :: ms)) ++ NL :: indent k ++ "}"%char :: rest).
      { cbn [app]. f_equal. rewrite <- app_assoc. f_equal. cbn [app]. f_equal. rewrite <- app_assoc. reflexivity. }
      assert (HLen : (length (m :: ms) <= length l)%nat).
      { pose proof (skip_len l) as Hsk. rewrite HL in Hsk. change (print k (JObj (m :: ms))) with ("{"%char :: lines (S k) (map (print_member (S k)) (m :: ms)) ++ NL :: indent k ++ ["}"%char]) in Hsk.
        rewrite E in Hsk. cbn [length] in Hsk. rewrite app_length in Hsk. pose proof (lines_len (S k) (map (print_member (S k)) (m :: ms))) as Hll. rewrite map_length in Hll. cbn [length] in Hll |- *. lia. }
      rewrite E. change (is "{"%char "n"%char) with false. change (is "{"%char "t"%char) with false. change (is "{"%char "f"%char) with false. change (is "{"%char QUOTE) with false.
      change (is "{"%char "-"%char) with false. change (digit "{"%char) with (@None Z). change (is "{"%char "["%char) with false. change (is "{"%char "{"%char) with true. cbv iota.
      assert (HO : exists r, skip (lines (S k) (map (print_member (S k)) (m :: ms)) ++ NL :: indent k ++ "}"%char :: rest) = QUOTE :: r).
      { cbn [map]. destruct ms as [|m' ms]; cbn [map lines app]; rewrite <- ?app_assoc; rewrite skip_line, member_head; cbn [skip]; change (ws QUOTE) with false; cbv iota; eauto. }
      destruct HO as (r0 & ->). change (is QUOTE "}"%char) with false. cbv iota. rewrite members_lines; [reflexivity|discriminate| |exact HLen].
      apply Forall_forall. intros w Hw. rewrite Forall_forall in IH, HF. pose proof (depth_obj _ _ Hw) as Hdw. exact (IH w Hw (HF w Hw) (S d) (S k) ltac:(lia)).
Qed.
Lemma parse_print v : writable v -> (depth v < 128)%nat -> parse (print 0 v) = Some v.
Proof.
  intros HW Hd. unfold parse. rewrite (reads_value v HW 128%nat 0%nat Hd (print 0 v) []); [reflexivity|exact Logic.I|].
  rewrite app_nil_r. rewrite <- (app_nil_r (print 0 v)) at 1. rewrite skip_solid; [rewrite app_nil_r; reflexivity|]. apply opens_solid, print_opens.
Qed.
