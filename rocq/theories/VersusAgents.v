(** * VersusAgents: C64, every move of a match is the choice of the agent on turn. *)
From Coq Require Import Permutation.
From Verif Require Import Base BaseFacts F32 Tensor GameModel GameFacts McModel McSpec McProof AlphaModel AlphaSpec SampleModel SelfSpec
  VisitSpec VersusModel VersusSpec VersusProof VersusApi.

Lemma choose_any A (l : list A) x : In x l -> forall i src, exists src' r', choose l (mkRng src' i) = (Some x, r') /\ forall j, j <> i -> src' j = src j.
Proof.
  intros Hin i src. apply In_nth_error in Hin. destruct Hin as [k Hk]. pose proof (nth_error_lt _ _ _ _ Hk) as Hlt.
  exists (fun j => if Nat.eq_dec j i then N.of_nat k else src j). eexists. split.
  - unfold choose. destruct l as [|y l]; [destruct k; discriminate|]. unfold gen_range, draw. cbn [Base.src pos].
    destruct (Nat.eq_dec i i) as [_|N]; [|contradiction]. rewrite nat_N_Z.
    replace (0 + Z.of_nat k mod (Z.of_nat (length (y :: l)) - 1 - 0 + 1)) with (Z.of_nat k) by (rewrite Z.mod_small; lia).
    rewrite Nat2Z.id, Hk. reflexivity.
  - intros j Hj. destruct (Nat.eq_dec j i); [contradiction|reflexivity].
Qed.
Theorem C64_random_lemma : forall (G : Game) (s : St G) vm, g_valid G s = Ok vm ->
  (forall r m r', random_action s r = Ok (m, r') -> (vm = [] /\ m = g_empty G) \/ In m vm)
  /\ (forall m, In m vm -> exists r r', random_action s r = Ok (m, r')).
Proof.
  intros G s vm Hv. unfold random_action. rewrite Hv. cbn [bind]. split.
  - intros r m r'. destruct (choose vm r) as [o r1] eqn:E. intros X. injection X as <- <-.
    unfold choose in E. destruct vm as [|y l]; [injection E as <- <-; left; auto|]. right.
    destruct (gen_range 0 (Z.of_nat (length (y :: l)) - 1) r) as [k r2] eqn:Eg. injection E as <- <-.
    unfold gen_range, draw in Eg. injection Eg as <- _.
    change (S (length l)) with (length (y :: l)). set (q := Z.of_N (src r (pos r)) mod (Z.of_nat (length (y :: l)) - 1 - 0 + 1)).
    assert (Hq : 0 <= q < Z.of_nat (length (y :: l))) by (unfold q; replace (Z.of_nat (length (y :: l)) - 1 - 0 + 1) with (Z.of_nat (length (y :: l))) by lia; apply Z.mod_pos_bound; cbn [length]; lia).
    destruct (nth_error (y :: l) (Z.to_nat (0 + q))) as [m|] eqn:En; [apply nth_error_In in En; exact En|]. apply nth_error_None in En. lia.
  - intros m Hin. destruct (choose_any _ vm m Hin 0 (fun _ => 0%N)) as (src' & r' & E & _). exists (mkRng src' 0), r'. rewrite E. reflexivity.
Qed.

Theorem C64_rounds_lemma : forall G I tsum dirichlet unif tpow cfg hash order p1 p2, setting G I tsum dirichlet unif tpow cfg hash order p1 p2 ->
  forall ln nanoid r a k a', vs_start nanoid p1 p2 r = Ok a ->
  mfold (fun a j => vs_round ln tsum dirichlet unif tpow cfg hash order p1 p2 j a) (seq 0 k) a = Ok a' ->
  forall i s g, In (i, (s, g)) (s_games a') ->
  g_id G s = i /\ vhist (plays ln tsum dirichlet unif tpow cfg p1 p2) tpow (pl_type p1) (pl_type p2) (vg_init g) k s.
Proof.
  intros G I tsum dirichlet unif tpow cfg hash order p1 p2 HS ln nanoid r a k a' E Em i s g Hin.
  destruct (rounds_ok G I tsum dirichlet unif tpow cfg hash order p1 p2 HS ln nanoid r a k a' E Em) as (starts & D & HK & _).
  pose proof (vk_games _ _ _ _ _ _ _ _ _ _ _ _ _ _ HK) as HF. rewrite Forall_forall in HF. destruct (HF _ Hin) as (H1 & _ & _ & Hh). auto.
Qed.

(** a finished game ended with a move that the agent on turn chose *)
Theorem C64_last_move_lemma : forall G I tsum dirichlet unif tpow cfg hash order p1 p2, setting G I tsum dirichlet unif tpow cfg hash order p1 p2 ->
  forall ln nanoid fuel r res r', play ln tsum dirichlet unif tpow nanoid cfg hash order p1 p2 fuel r = Ok (res, r') ->
  forall g, In g (r_games res) -> exists k s m vm s' r1 r2,
    vhist (plays ln tsum dirichlet unif tpow cfg p1 p2) tpow (pl_type p1) (pl_type p2) (vg_init g) k s
    /\ g_valid G s = Ok vm /\ In m vm
    /\ agent_plays ln tsum dirichlet unif tpow cfg (if g_player G s =? -1 then p1 else p2) s m /\ g_apply G s m r1 = Ok (s', r2)
    /\ vg_winner g = match g_winner G s' with Some w => won_by (pl_type p1) (pl_type p2) w | None => ANone end.
Proof.
  intros G I tsum dirichlet unif tpow cfg hash order p1 p2 HS ln nanoid fuel r res r' E g Hg.
  destruct (C39_accounting_lemma _ _ _ _ _ _ _ _ _ _ _ HS _ _ _ _ _ _ E) as (starts & ws & HR & Hbg).
  apply (Permutation_in _ (rep_games _ _ _ _ _ _ _ _ HR)) in Hg. apply in_map_iff in Hg. destruct Hg as ([g0 w] & <- & Hin).
  pose proof (rep_end _ _ _ _ _ _ _ _ HR) as HE. clear -HE Hin. induction HE as [|x y l l' H _ IH]; [destruct Hin|].
  destruct Hin as [X|Hin]; [|exact (IH Hin)]. injection X as -> ->. cbn [fst snd].
  destruct H as [k s s' w Hh (vm & m & r1 & r2 & Hv & Him & Hm & Ha) Hw|k s s' Hh (vm & m & r1 & r2 & Hv & Him & Hm & Ha) Hw _];
    exists k, s, m, vm, s', r1, r2; (split; [exact Hh|]); (split; [exact Hv|]); (split; [exact Him|]); (split; [exact Hm|]); (split; [exact Ha|]); rewrite Hw; reflexivity.
Qed.
