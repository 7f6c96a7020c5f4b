(* C03 and C30. *)
From Coq Require Import String.
From Verif Require Import Base Lib Keys Types MacroExec Kbd Config Steps Hist SpecHist SpecWf Engine Wf WfEvents
  ParseWf WfHist ExTools TermProofs SpecTerm.
Local Open Scope nat_scope.
Local Open Scope list_scope.
Local Notation length := List.length.

Lemma wf_acyclic c : wf_config c -> acyclic c.
Proof.
  intros W i Hi. pose proof (proj1 (wf_descs c W i Hi)) as H. unfold ok_desc in H.
  destruct (nth i (c_descs c) DNone); cbn [rank]; lia.
Qed.
Lemma reach_inv_cfg G c k : inv c -> reach G c k -> inv (k_cfg k) /\ inv (k_orig k).
Proof.
  intros Hc H. induction H as [clk H|k fuel evs k' t Hh IH H|k exp k' ok Hh IH H HG|k k' Hh IH H].
  - split; exact Hc.
  - apply kbd_process_events_steps in H. apply steps_cfg in H as [-> ->]. exact IH.
  - destruct IH as [I1 I2]. unfold kbd_eval in H. destruct (str_eqb exp _).
    + injection H as <- <-. split; exact I2.
    + bstep H r E. destruct r as [c1 ok1]. injection H as <- <-.
      split; [exact (config_add_entry_ok _ _ _ _ I1 E)|exact I2].
  - destruct H; exact IH.
Qed.

(* ---- C03 ------------------------------------------------------------------------ *)
(* Any state of a keyboard with a well formed configuration, reachable or not, and
   any events with any time stamps: processing comes to an end. *)
Theorem C03_any_state : forall k evs, wf_config (k_cfg k) -> exists r, outcome k evs r.
Proof.
  intros k evs W. destruct (events_halt k evs (wf_acyclic _ W)) as [f0 Hf].
  exists (kbd_process_events f0 k evs). split; [exact Hf|]. exists f0. intros f L.
  unfold kbd_process_events in *. now apply fin_loop_more.
Qed.
(* In particular whatever has happened to the keyboard before: batches of events,
   live binds, and all the daemon does in between. *)
Theorem C03_terminates : forall text c k evs,
  config_parse text = Ok (Some c) -> reach (fun _ => True) c k -> exists r, outcome k evs r.
Proof.
  intros text c k evs Hc Hr. apply C03_any_state.
  apply (reach_inv_cfg _ _ _ (config_parse_inv _ _ Hc) Hr).
Qed.
Lemma outcome_unique k evs r r' : outcome k evs r -> outcome k evs r' -> r = r'.
Proof.
  intros [_ [f H]] [_ [f' H']]. rewrite <- (H (Nat.max f f')), <- (H' (Nat.max f f')); auto; lia.
Qed.
(* Nothing to replay is lost: in the example a broken chord attempt is replayed while
   another key is undecided, whose decision in turn leaves a further key undecided. *)
Definition ex03_text : str := bs "[main]
a = overloadt(nav, timeout(x, 30, y), 50)
b = timeout(overloadt2(nav, z, 20), 10, c)
j+k = esc
[nav]
j = left
".
Definition ex03 : config := cfg_of ex03_text.
Definition ex03_evs : list kev :=
  [D 30 0; D 36 10; D 48 20; U 36 25; D 37 30; U 48 35; D 36 40; U 30 45; T 200; U 37 205; U 36 210].
Definition oev_dec : forall a b : oev, {a = b} + {a <> b}.
Proof. repeat decide equality. Defined.
Definition outb (o : list oev) (k : kbd) : bool := if list_eq_dec oev_dec (rev (k_out k)) o then true else false.
Lemma outb_ok o k : outb o k = true -> rev (k_out k) = o.
Proof. unfold outb. destruct (list_eq_dec _ _ _); auto; discriminate. Qed.
Lemma outcome_ex f k evs o t :
  match kbd_process_events f k evs with Ok (k', t') => outb o k' && (t =? t')%Z | _ => false end = true ->
  exists k', outcome k evs (Ok (k', t)) /\ rev (k_out k') = o.
Proof.
  destruct (kbd_process_events f k evs) as [[k' t']| | |] eqn:E; try discriminate.
  intros H. apply andb_true_iff in H as [H1 H2]. apply Z.eqb_eq in H2. subst t'. exists k'. split; [|now apply outb_ok].
  split; [discriminate|]. exists f. intros g L. rewrite <- E. unfold kbd_process_events in *.
  apply fin_loop_more; auto. rewrite E. discriminate.
Qed.
Definition nofuelb (r : res (kbd * Z)) : bool := match r with NoFuel => true | _ => false end.
Lemma nofuelb_ok r : nofuelb r = true -> r = NoFuel.
Proof. destruct r; auto; discriminate. Qed.
Example C03_example :
  config_parse ex03_text = Ok (Some ex03) /\ reach (fun _ => True) ex03 (new_keyboard ex03 1)
  /\ kbd_process_events 15 (new_keyboard ex03 1) ex03_evs = NoFuel
  /\ exists k', outcome (new_keyboard ex03 1) ex03_evs (Ok (k', 0%Z))
       /\ rev (k_out k') = [OKey 45 true; OKey 36 true; OKey 36 false; OKey 46 true; OKey 37 true; OKey 46 false;
                            OKey 36 true; OKey 45 false; OKey 37 false; OKey 36 false].
Proof.
  split; [apply parsesb_ok; vm_compute; reflexivity|]. split; [apply reach_init; [lia|exact Logic.I]|]. split.
  - apply nofuelb_ok. vm_compute. reflexivity.
  - apply (outcome_ex 20). vm_compute. reflexivity.
Qed.
Definition C03_all := (C03_any_state, C03_terminates).
Print Assumptions C03_all.

(* ---- C30 ------------------------------------------------------------------------ *)
Definition loop_outcome (k : kbd) (evs : list kev) (t ts : Z) (r : res (kbd * Z)) : Prop :=
  r <> NoFuel /\ exists f0, forall f, f0 <= f -> pe_loop (process_event f) f k evs t ts = r.
Lemma single_outcome k e r : outcome k [e] r <->
  r <> NoFuel /\ exists f0, forall f, f0 <= f -> process_event f k (ev_code e) (ev_pressed e) (ev_time e) = r.
Proof.
  assert (E : forall f, kbd_process_events (S f) k [e] = process_event (S f) k (ev_code e) (ev_pressed e) (ev_time e)).
  { intros f. unfold kbd_process_events. cbn [pe_loop]. change (0 <? 0)%Z with false. cbn [andb].
    destruct (process_event (S f) _ _ _ _) as [[k1 t1]| | |]; auto. destruct f; reflexivity. }
  unfold outcome. split; intros [Hr [f0 H]]; (split; [exact Hr|]); exists (S f0); intros [|f] L; try lia;
    rewrite <- (H (S f)) by lia; now rewrite E.
Qed.
Lemma loop_unfold f k e rest t ts :
  pe_loop (process_event (S f)) (S f) k (e :: rest) t ts =
  if (0 <? t)%Z && (ts <=? ev_time e)%Z then
    '(k1, d) <- process_event (S f) k 0%N false ts ;;
    pe_loop (process_event (S f)) f k1 (e :: rest) d (ts + d)%Z
  else
    '(k1, d) <- process_event (S f) k (ev_code e) (ev_pressed e) (ev_time e) ;;
    pe_loop (process_event (S f)) f k1 rest d (ev_time e + d)%Z.
Proof. reflexivity. Qed.

Lemma driven_loop k d due evs r : driven k d due evs r -> loop_outcome k evs d due r.
Proof.
  assert (Hl : forall k1 evs d1 due1 r, loop_outcome k1 evs d1 due1 r -> exists f0, forall f, f0 <= f ->
     pe_loop (process_event (S f)) f k1 evs d1 due1 = r).
  { intros k1 evs1 d1 due1 r1 [Hr [f0 H]]. exists f0. intros f L. rewrite <- (H f0) by lia.
    apply fin_loop_more; try lia. rewrite (H f0) by lia. exact Hr. }
  induction 1 as [k delay due|k delay due e rest k1 d1 r Hd Hu Ho Hr IH|k delay due e rest r Hd Hu Ho Hx
                 |k delay due e rest k1 d1 r Hn Ho Hr IH|k delay due e rest r Hn Ho Hx].
  - split; [discriminate|]. exists 1. intros [|f] L; [lia|]. reflexivity.
  - apply single_outcome in Ho as [_ [f0 Ho]]. pose proof IH as [Hf _]. apply Hl in IH as [f1 IH].
    split; [exact Hf|]. exists (S (Nat.max f0 f1)). intros [|f] L; [lia|]. rewrite loop_unfold.
    replace (_ && _) with true by lia. rewrite Ho by lia. cbn [bind]. apply IH. lia.
  - apply single_outcome in Ho as [Hf [f0 Ho]]. split; [exact Hf|]. exists (S f0). intros [|f] L; [lia|].
    rewrite loop_unfold. replace (_ && _) with true by lia. rewrite Ho by lia. destruct r as [x| | |]; auto. now destruct (Hx x).
  - apply single_outcome in Ho as [_ [f0 Ho]]. pose proof IH as [Hf _]. apply Hl in IH as [f1 IH].
    split; [exact Hf|]. exists (S (Nat.max f0 f1)). intros [|f] L; [lia|]. rewrite loop_unfold.
    replace (_ && _) with false by lia. rewrite Ho by lia. cbn [bind]. apply IH. lia.
  - apply single_outcome in Ho as [Hf [f0 Ho]]. split; [exact Hf|]. exists (S f0). intros [|f] L; [lia|].
    rewrite loop_unfold. replace (_ && _) with false by lia. rewrite Ho by lia. destruct r as [x| | |]; auto. now destruct (Hx x).
Qed.
Lemma outcome_cfg k evs k' d : outcome k evs (Ok (k', d)) -> k_cfg k' = k_cfg k.
Proof. intros [_ [f H]]. specialize (H f (le_n f)). apply kbd_process_events_steps in H. now apply steps_cfg in H as [-> _]. Qed.
Lemma driven_total : forall evs k d due, wf_config (k_cfg k) -> exists r, driven k d due evs r.
Proof.
  induction evs as [|e rest IH]; [eauto using dr_end|].
  assert (He : forall k d due, wf_config (k_cfg k) -> ~ ((0 < d)%Z /\ (due <= ev_time e)%Z) ->
            exists r, driven k d due (e :: rest) r).
  { intros k d due W Hn. destruct (C03_any_state k [e] W) as [r Hr]. destruct r as [[k1 d1]| | |].
    - destruct (IH k1 d1 (ev_time e + d1)%Z) as [r Hd]; [now rewrite (outcome_cfg _ _ _ _ Hr)|].
      exists r. eapply dr_event; eauto.
    - eexists. eapply dr_event_stop; [exact Hn|exact Hr|discriminate].
    - eexists. eapply dr_event_stop; [exact Hn|exact Hr|discriminate].
    - destruct Hr as [Hr _]. now destruct Hr. }
  intros k d due. remember (Z.to_nat (ev_time e + 1 - due)) as n eqn:En. revert k d due En.
  induction n as [n IHn] using lt_wf_ind. intros k d due En W.
  destruct (Z.ltb_spec 0 d) as [Hd|Hd]; [|apply He; auto; lia].
  destruct (Z.leb_spec due (ev_time e)) as [Hu|Hu]; [|apply He; auto; lia].
  destruct (C03_any_state k [mkKev 0%N false due] W) as [r Hr]. destruct r as [[k1 d1]| | |].
  - assert (W1 : wf_config (k_cfg k1)) by now rewrite (outcome_cfg _ _ _ _ Hr).
    assert (X : exists r, driven k1 d1 (due + d1)%Z (e :: rest) r).
    { destruct (Z.ltb_spec 0 d1); [|apply He; auto; lia]. eapply IHn; [|reflexivity|exact W1]. lia. }
    destruct X as [r X]. exists r. eapply dr_timer; eauto.
  - eexists. eapply dr_timer_stop; [exact Hd|exact Hu|exact Hr|discriminate].
  - eexists. eapply dr_timer_stop; [exact Hd|exact Hu|exact Hr|discriminate].
  - destruct Hr as [Hr _]. now destruct Hr.
Qed.
Lemma loop_outcome_unique k evs t ts r r' : loop_outcome k evs t ts r -> loop_outcome k evs t ts r' -> r = r'.
Proof. intros [_ [f H]] [_ [f' H']]. rewrite <- (H (Nat.max f f')), <- (H' (Nat.max f f')); auto; lia. Qed.
Lemma loop_driven k d due evs r : wf_config (k_cfg k) -> (loop_outcome k evs d due r <-> driven k d due evs r).
Proof.
  intros W. split; [|apply driven_loop]. intros H. destruct (driven_total evs k d due W) as [r' H'].
  now rewrite (loop_outcome_unique _ _ _ _ _ _ H (driven_loop _ _ _ _ _ H')).
Qed.

(* One call with all events comes to the same as one call per event with the timer
   calls the engine has asked for in between. *)
Theorem C30_batch : forall k evs r, wf_config (k_cfg k) -> (outcome k evs r <-> driven k 0 0 evs r).
Proof. intros k evs r W. apply (loop_driven k 0 0 evs r W). Qed.

(* Cutting a batch in two anywhere: the rest is driven from where the first part ended. *)
Lemma driven_app k d due evs1 e evs2 k1 d1 r : driven k d due (evs1 ++ [e]) (Ok (k1, d1)) ->
  driven k1 d1 (ev_time e + d1)%Z evs2 r -> driven k d due (evs1 ++ e :: evs2) r.
Proof.
  remember (evs1 ++ [e]) as l eqn:El. remember (Ok (k1, d1)) as r1 eqn:Er. intros H H2. revert evs1 El Er.
  induction H as [k delay due|k delay due e0 rest ka da r0 Hd Hu Ho Hr IH|k delay due e0 rest r0 Hd Hu Ho Hx
                 |k delay due e0 rest ka da r0 Hn Ho Hr IH|k delay due e0 rest r0 Hn Ho Hx]; intros evs1 El Er.
  - destruct evs1; discriminate.
  - assert (Eh : exists l, evs1 ++ e :: evs2 = e0 :: l).
    { destruct evs1; injection El as <- _; cbn [app]; eauto. }
    destruct Eh as [l Eh]. rewrite Eh. eapply dr_timer; eauto. rewrite <- Eh. now apply IH.
  - subst r0. now destruct (Hx (k1, d1)).
  - destruct evs1 as [|e1 evs1]; injection El as <- El.
    + subst rest. cbn [app]. eapply dr_event; [exact Hn|exact Ho|].
      inversion Hr as [ka0 da0 due0 Ea Eb Ec Ed Eo| | | |]. subst r0. apply Ok_inj, pair_equal_spec in Eo as [<- <-]. exact H2.
    + subst rest. cbn [app]. eapply dr_event; eauto.
  - subst r0. now destruct (Hx (k1, d1)).
Qed.
Theorem C30_split : forall k evs1 e evs2 k1 d1 r, wf_config (k_cfg k) ->
  outcome k (evs1 ++ [e]) (Ok (k1, d1)) ->
  (outcome k (evs1 ++ e :: evs2) r <-> driven k1 d1 (ev_time e + d1)%Z evs2 r).
Proof.
  intros k evs1 e evs2 k1 d1 r W H1.
  assert (W1 : wf_config (k_cfg k1)) by now rewrite (outcome_cfg _ _ _ _ H1).
  apply C30_batch in H1; auto. rewrite C30_batch by auto. split.
  - intros H. destruct (driven_total evs2 k1 d1 (ev_time e + d1)%Z W1) as [r' H'].
    pose proof (driven_app _ _ _ _ _ _ _ _ _ H1 H') as H2.
    assert (r = r'); [|now subst]. eapply loop_outcome_unique; eapply driven_loop; eauto.
  - intros H. eapply driven_app; eauto.
Qed.

(* For parsed configurations and reachable states. *)
Theorem C30_reachable : forall text c k evs r,
  config_parse text = Ok (Some c) -> reach (fun _ => True) c k -> (outcome k evs r <-> driven k 0 0 evs r).
Proof.
  intros text c k evs r Hc Hr. apply C30_batch.
  apply (reach_inv_cfg _ _ _ (config_parse_inv _ _ Hc) Hr).
Qed.
(* a is undecided when the batch of two is half through; the call back that is due at
   50 activates the layer before s arrives at 100. *)
Example C30_example : exists k1 k2,
  outcome (new_keyboard ex03 1) [D 30 0] (Ok (k1, 50%Z)) /\ k_out k1 = []
  /\ outcome (new_keyboard ex03 1) [D 30 0; D 36 100; U 36 101] (Ok (k2, 49%Z))
  /\ driven k1 50 (0 + 50) [D 36 100; U 36 101] (Ok (k2, 49%Z))
  /\ rev (k_out k2) = [OLayer 6 true true; OKey 105 true; OKey 105 false].
Proof.
  assert (W : wf_config (k_cfg (new_keyboard ex03 1))).
  { assert (Hc : config_parse ex03_text = Ok (Some ex03)) by (apply parsesb_ok; vm_compute; reflexivity).
    apply (config_parse_inv _ _ Hc). }
  destruct (outcome_ex 20 (new_keyboard ex03 1) [D 30 0] [] 50) as (k1 & H1 & O1); [vm_compute; reflexivity|].
  destruct (outcome_ex 20 (new_keyboard ex03 1) [D 30 0; D 36 100; U 36 101]
              [OLayer 6 true true; OKey 105 true; OKey 105 false] 49) as (k2 & H2 & O2); [vm_compute; reflexivity|].
  exists k1, k2. split; [exact H1|]. split; [destruct (k_out k1); [reflexivity|now destruct (app_cons_not_nil _ _ _ (eq_sym O1))]|].
  split; [exact H2|]. split; [|exact O2].
  apply (C30_split _ [] (D 30 0) [D 36 100; U 36 101] k1 50 _ W); assumption.
Qed.
Definition C30_all := (C30_batch, C30_split, C30_reachable).
Print Assumptions C30_all.
