(* Invariants of the engine, for executions that run to completion: a simpler
   version of the principle in Engine.v.  The shape of what the chord and
   pending stages may change is established once. *)
From Verif Require Import Base Lib Keys Types MacroExec Kbd Engine ModsProofs ActProofs Wf OneProofs
  CacheProofs.

(* the action of an active chord comes from the configuration or was there before *)
Definition chord_src (k : kbd) (d : desc) : Prop :=
  d = DNone
  \/ (exists ac, In ac (k_achords k) /\ d = ch_d (ac_chord ac))
  \/ exists li ch, In ch (ly_chords (layer_at k li)) /\ d = ch_d ch.
Definition chord_changed (k k' : kbd) : Prop :=
  exists q acs ts, k' = set_k_chord q (set_k_achords acs (set_k_timeouts ts k))
    /\ length acs = length (k_achords k)
    /\ forall ac, In ac acs -> chord_src k (ch_d (ac_chord ac)).

Lemma src_old k ac : In ac (k_achords k) -> chord_src k (ch_d (ac_chord ac)).
Proof. right. left. eauto. Qed.
Lemma set_same_chord k : set_k_chord (k_chord k) k = k. Proof. now destruct k. Qed.
Lemma set_same_achords k : set_k_achords (k_achords k) k = k. Proof. now destruct k. Qed.
Lemma set_same_timeouts k : set_k_timeouts (k_timeouts k) k = k. Proof. now destruct k. Qed.
Lemma cc_times k q ts : chord_changed k (set_k_timeouts ts (set_k_chord q k)).
Proof. exists q, (k_achords k), ts. split; [now destruct k|]. split; auto. apply src_old. Qed.
Lemma cc_chord k q : chord_changed k (set_k_chord q k).
Proof. exists q, (k_achords k), (k_timeouts k). split; [now destruct k|]. split; auto. apply src_old. Qed.
Lemma cc_refl k : chord_changed k k.
Proof. pose proof (cc_chord k (k_chord k)) as H. now rewrite set_same_chord in H. Qed.
Lemma cc_trans a b c : chord_changed a b -> chord_changed b c -> chord_changed a c.
Proof.
  intros [q [acs [ts [-> [L1 H1]]]]] [q2 [acs2 [ts2 [-> [L2 H2]]]]].
  exists q2, acs2, ts2. split; [now destruct a|]. split; [cbn [k_achords set_k_chord set_k_achords] in L2; congruence|].
  intros ac Hac. destruct (H2 ac Hac) as [A|[[ac0 [A1 A2]]|A]]; [now left| |right; right; exact A].
  cbn [k_achords set_k_chord set_k_achords] in A1. rewrite A2. auto.
Qed.
Lemma cc_achords k i ac : chord_src k (ch_d (ac_chord ac)) ->
  chord_changed k (set_k_achords (upd i ac (k_achords k)) k).
Proof.
  intros H. exists (k_chord k), (upd i ac (k_achords k)), (k_timeouts k). split; [now destruct k|].
  split; [apply upd_length|]. intros ac' Hin. apply In_upd in Hin as [->|Hin]; auto. now apply src_old.
Qed.
Lemma cc_schedule k t k' : schedule_timeout k t = Ok k' -> chord_changed k k' /\ k_chord k' = k_chord k.
Proof.
  intros H. apply schedule_ok in H. subst. split; auto.
  pose proof (cc_times k (k_chord k) (k_timeouts k ++ [t])) as H. now rewrite set_same_chord in H.
Qed.

(* ---- the chord stage ------------------------------------------------------------- *)
(* the events a plan replays *)
Definition replays (pl : cplan) : list kev :=
  match pl with PlanReplay _ (Some evs) => evs | _ => [] end.
Definition chord_target (pl : cplan) : option nat :=
  match pl with PlanRelease i => Some i | PlanReplay p _ => p | _ => None end.
Definition chord_shape (k : kbd) (new : list kev) (r : kbd * cplan) : Prop :=
  let '(k', pl) := r in
  chord_changed k k'
  /\ (forall e, In e (h_queue (k_chord k')) -> In e (h_queue (k_chord k)) \/ In e new)
  /\ (forall e, In e (replays pl) -> In e (h_queue (k_chord k)) \/ In e new)
  /\ (forall i, chord_target pl = Some i -> i < length (k_achords k)).

Lemma shape_trans k k1 new r : chord_changed k k1 ->
  (forall e, In e (h_queue (k_chord k1)) -> In e (h_queue (k_chord k)) \/ In e new) ->
  chord_shape k1 new r -> chord_shape k new r.
Proof.
  destruct r as [k' pl]. intros H1 H2 [A1 [A2 [A3 A4]]]. split; [eapply cc_trans; eauto|].
  split; [intros e He; apply A2 in He; destruct He; auto|].
  split; [intros e He; apply A3 in He; destruct He; auto|].
  intros i Hi. apply A4 in Hi. destruct H1 as [q [acs [ts [-> [L _]]]]].
  cbn [k_achords set_k_chord set_k_achords] in Hi. congruence.
Qed.

Lemma free_chord_lt acs i : free_chord acs 0 = Some i -> i < length acs.
Proof.
  assert (G : forall acs n, free_chord acs n = Some i -> n <= i < n + length acs).
  { clear. induction acs as [|a r IH]; cbn [free_chord length]; intros n H; [discriminate|].
    destruct (ac_active a).
    - apply IH in H. lia.
    - injection H as <-. lia. }
  intros H. apply G in H. lia.
Qed.
Lemma chord_of_key_lt acs code i : chord_of_key acs code 0 = Some i -> i < length acs.
Proof.
  assert (G : forall acs n, chord_of_key acs code n = Some i -> n <= i < n + length acs).
  { clear. induction acs as [|a r IH]; cbn [chord_of_key length]; intros n H; [discriminate|].
    destruct (_ && _).
    - injection H as <-. lia.
    - apply IH in H. lia. }
  intros H. apply G in H. lia.
Qed.
Lemma in_skipn {A} (x : A) : forall n l, In x (skipn n l) -> In x l.
Proof. induction n; intros [|y l] H; cbn [skipn] in H; auto. right. auto. Qed.

Lemma resolve_shape k new r : resolve_plan k = Ok r -> chord_shape k new r.
Proof.
  unfold resolve_plan. intros H. cbn [h_match set_cstate k_chord set_k_chord set_h_state] in H.
  destruct (h_match (k_chord k)) as [p|].
  - bstep H ch Ed. destruct (free_chord _ 0) as [i|] eqn:Ef; [|discriminate H]. apply Ok_inj in H. subst r.
    split; [|split; [intros e He; left; exact He|split]].
    + eapply cc_trans; [apply (cc_chord k)|]. apply cc_achords. cbn [ac_chord].
      unfold deref_match in Ed. destruct p as [li ci].
      destruct (_ && _) eqn:Eb in Ed; [|discriminate Ed]. apply Ok_inj in Ed. subst ch.
      destruct (Nat.lt_ge_cases ci (length (ly_chords (layer_at (set_cstate CsResolving k) li)))) as [L|L].
      * right. right. eexists _, _. split; [apply nth_In, L|reflexivity].
      * left. now rewrite nth_overflow by exact L.
    + cbn [replays]. destruct (Nat.ltb _ _); [intros e []|]. intros e He. apply in_skipn in He. left. exact He.
    + intros j [= <-]. now apply free_chord_lt in Ef.
  - apply Ok_inj in H. subst r. split; [apply cc_chord|].
    split; [intros e He; left; exact He|]. split; [intros e He; left; exact He|discriminate].
Qed.
Lemma abort_shape k new r : abort_plan k = Ok r -> chord_shape k new r.
Proof.
  intros H. apply (resolve_shape _ new) in H. eapply shape_trans; [apply (cc_chord k)| |exact H]. auto.
Qed.
Lemma matched_shape k x time new r : matched_plan k x time = Ok r -> chord_shape k new r.
Proof.
  unfold matched_plan. intros H.
  set (k1 := set_k_chord (set_h_last time (k_chord k)) k) in *.
  assert (A : chord_changed k k1) by apply cc_chord.
  assert (G : forall s t k2, schedule_timeout (set_cstate s k1) t = Ok k2 ->
     chord_changed k k2 /\ h_queue (k_chord k2) = h_queue (k_chord k)).
  { intros s t k2 E. apply cc_schedule in E as [E1 E2]. rewrite E2. split; [|reflexivity].
    eapply cc_trans; [exact A|]. eapply cc_trans; [apply cc_chord|exact E1]. }
  destruct x.
  - bstep H k2 E. apply Ok_inj in H. subst r. apply G in E as [E1 E2].
    split; auto. rewrite E2. split; [auto|split; [intros e []|discriminate]].
  - bstep H k2 E. apply Ok_inj in H. subst r. apply G in E as [E1 E2].
    split; auto. rewrite E2. split; [auto|split; [intros e []|discriminate]].
  - destruct (_ =? 0)%Z.
    + apply (resolve_shape _ new) in H. eapply shape_trans; [exact A|auto|exact H].
    + bstep H k2 E. apply Ok_inj in H. subst r. apply G in E as [E1 E2].
      split; auto. rewrite E2. split; [auto|split; [intros e []|discriminate]].
  - bstep H k2 E. apply Ok_inj in H. subst r. apply G in E as [E1 E2].
    split; auto. rewrite E2. split; [auto|split; [intros e []|discriminate]].
Qed.
Lemma check_match_shape k r k' : check_chord_match k = (r, k') ->
  chord_changed k k' /\ h_queue (k_chord k') = h_queue (k_chord k).
Proof.
  unfold check_chord_match. destruct (fold_left _ _ _) as [[best mx] part].
  destruct best as [[li ci]|]; intros [= <- <-].
  - split; [apply cc_chord|reflexivity].
  - split; [apply cc_refl|reflexivity].
Qed.
Lemma enqueue_shape k code pressed time k' : enqueue_chord_event k code pressed time = Ok k' ->
  chord_changed k k' /\ forall e, In e (h_queue (k_chord k')) ->
    In e (h_queue (k_chord k)) \/ In e [mkKev code pressed time].
Proof.
  unfold enqueue_chord_event. intros H. destruct (code =? 0)%N.
  - apply Ok_inj in H. subst. split; [apply cc_refl|auto].
  - destruct (Nat.ltb _ _); [|discriminate]. apply Ok_inj in H. subst. split; [apply cc_chord|].
    cbn [h_queue k_chord set_k_chord set_h_queue]. intros e He. now apply in_app_or in He.
Qed.

Lemma chord_plan_shape k code pressed time r : chord_plan k code pressed time = Ok r ->
  chord_shape k [mkKev code pressed time] r.
Proof.
  unfold chord_plan. intros H. set (new := [mkKev code pressed time]) in *.
  destruct (if negb (code =? 0)%N && negb pressed then _ else _) as [i|] eqn:Ei.
  - destruct (chord_up k code i) as [k1 rem] eqn:Eu. apply Ok_inj in H. subst r.
    unfold chord_up in Eu. injection Eu as <- <-. split.
    + apply cc_achords. cbn [ac_chord ch_d].
      destruct (Nat.lt_ge_cases i (length (k_achords k))) as [L|L].
      * right. left. eexists. split; [apply nth_In, L|reflexivity].
      * left. now rewrite nth_overflow by exact L.
    + split; [auto|]. split; [destruct (existsb _ _); intros e []|].
      destruct (existsb _ _); cbn [chord_target]; [discriminate|]. intros j [= <-].
      destruct (_ && _); [|discriminate Ei]. now apply chord_of_key_lt in Ei.
  - destruct (h_state (k_chord k)).
    + apply Ok_inj in H. subst r. split; [apply cc_refl|]. split; [auto|split; [intros e []|discriminate]].
    + bstep H k1 E1. apply enqueue_shape in E1 as [A1 A2].
      destruct (check_chord_match k1) as [x k2] eqn:Ec. apply check_match_shape in Ec as [B1 B2].
      assert (C1 : chord_changed k k2) by (eapply cc_trans; [apply cc_chord|eapply cc_trans; eauto]).
      assert (C2 : forall e, In e (h_queue (k_chord k2)) -> In e (h_queue (k_chord k)) \/ In e new).
      { intros e He. rewrite B2 in He. apply A2 in He as [[]|He]. auto. }
      destruct x.
      * apply Ok_inj in H. subst r. split; [exact C1|]. split; [exact C2|split; [intros e []|discriminate]].
      * apply (matched_shape _ _ _ new) in H. eapply shape_trans; eauto.
      * apply (matched_shape _ _ _ new) in H. eapply shape_trans; eauto.
      * apply (matched_shape _ _ _ new) in H. eapply shape_trans; eauto.
    + destruct (code =? 0)%N.
      * destruct (_ <=? _)%Z.
        2: { apply Ok_inj in H. subst r. split; [apply cc_refl|]. split; [auto|split; [intros e []|discriminate]]. }
        destruct (h_match (k_chord k)).
        2: { now apply abort_shape. }
        destruct (0 <? _)%Z.
        2: { now apply resolve_shape. }
        bstep H k1 E1. apply Ok_inj in H. subst r. apply cc_schedule in E1 as [A1 A2].
        split; [eapply cc_trans; [exact A1|apply cc_chord]|]. split; [|split; [intros e []|discriminate]].
        cbn [h_queue set_cstate k_chord set_k_chord set_h_state]. rewrite A2. auto.
      * bstep H k1 E1. apply enqueue_shape in E1 as [A1 A2]. destruct pressed; cbn [negb] in H.
        2: { apply (abort_shape _ new) in H. eapply shape_trans; eauto. }
        destruct (check_chord_match k1) as [x k2] eqn:Ec. apply check_match_shape in Ec as [B1 B2].
        assert (C1 : chord_changed k k2) by (eapply cc_trans; eauto).
        assert (C2 : forall e, In e (h_queue (k_chord k2)) -> In e (h_queue (k_chord k)) \/ In e new).
        { intros e He. rewrite B2 in He. now apply A2 in He. }
        destruct x; [apply (abort_shape _ new) in H|apply (matched_shape _ _ _ new) in H..];
          eapply shape_trans; eauto.
    + destruct (code =? 0)%N.
      * destruct (_ <=? _)%Z.
        2: { apply Ok_inj in H. subst r. split; [apply cc_refl|]. split; [auto|split; [intros e []|discriminate]]. }
        now apply resolve_shape.
      * bstep H k1 E1. apply enqueue_shape in E1 as [A1 A2]. destruct pressed; cbn [negb] in H.
        1: { apply Ok_inj in H. subst r. split; [exact A1|]. split; [exact A2|split; [intros e []|discriminate]]. }
        destruct (h_match (k_chord k1)); [|discriminate H]. bstep H ch Ed.
        destruct (in_keys _ _).
        -- apply (abort_shape _ new) in H. eapply shape_trans; eauto.
        -- apply Ok_inj in H. subst r. split; [exact A1|]. split; [exact A2|split; [intros e []|discriminate]].
Qed.

(* ---- what no action touches -------------------------------------------------------- *)
Definition frame (k k' : kbd) : Prop :=
  k_cfg k' = k_cfg k /\ k_orig k' = k_orig k /\ k_chord k' = k_chord k /\ k_achords k' = k_achords k
  /\ p_queue (k_pend k') = p_queue (k_pend k) /\ length (k_cache k') = length (k_cache k).
Lemma frame_refl k : frame k k. Proof. repeat split. Qed.
Lemma frame_trans a b c : frame a b -> frame b c -> frame a c.
Proof. unfold frame. intuition congruence. Qed.

(* the states reached by the elementary operations, as explicit field updates *)
Ltac norm_states :=
  repeat match goal with
  | E : activate_layer _ _ _ = Ok _ |- _ => apply activate_ok in E; destruct E as [? ->]
  | E : deactivate_layer _ _ = Ok _ |- _ => apply deactivate_ok in E; destruct E as [_ [? ->]]
  | E : schedule_timeout _ _ = Ok _ |- _ => apply schedule_ok in E; subst
  | E : clear_oneshot _ = Ok _ |- _ => apply clear_oneshot_ok in E; destruct E as [? [? [-> _]]]
  | E : clear _ = Ok _ |- _ => apply clear_ok in E; destruct E as [? [? [-> _]]]
  | |- context [update_mods ?a ?b ?c ?d] =>
      let H := fresh in destruct (update_mods_only a b c d) as [? [? [? H]]]; rewrite H; clear H
  | |- context [send_key ?a ?b ?c] =>
      let H := fresh in destruct (send_key_only a b c) as [? [? [? H]]]; rewrite H; clear H
  | |- context [execute_macro ?a ?b ?c] =>
      let H := fresh in destruct (execute_macro_only a b c) as [? [? [? H]]]; rewrite H; clear H
  | |- context [reset_keystate ?a] =>
      let H := fresh in destruct (reset_keystate_grow a) as [? [? [? [H _]]]]; rewrite H; clear H
  end.
Lemma set_ce_layer_length c x i : length (set_ce_layer c x i) = length c.
Proof. unfold set_ce_layer. destruct (cache_find _ _ _); auto. apply upd_length. Qed.
Ltac kcbn := cbn [k_cfg k_orig k_cache k_last_out k_last_code k_latch k_amacro k_amacro_layer k_macro_to k_oneshot_to k_repeat k_ovl_start k_last_simple k_timeouts k_achords k_chord k_pend k_ls k_ks k_scroll k_clock k_out set_k_achords set_k_amacro set_k_amacro_layer set_k_cache set_k_cfg set_k_chord set_k_clock set_k_ks set_k_last_code set_k_last_out set_k_last_simple set_k_latch set_k_ls set_k_macro_to set_k_oneshot_to set_k_orig set_k_out set_k_ovl_start set_k_pend set_k_repeat set_k_scroll set_k_timeouts  kk lsn set_lsi emit].
Ltac fr := norm_states; repeat split; kcbn; rewrite ?set_ce_layer_length, ?upd_length; auto.

Lemma setlayout_frame k i k' : setlayout k i = Ok k' -> frame k k'.
Proof.
  unfold setlayout. intros H. bstep H u Eu. bstep H k1 E1. apply Ok_inj in H. subst k'.
  assert (G : forall l k, frame k (fold_left drop_layout l k)).
  { clear. induction l; cbn [fold_left]; intros; [apply frame_refl|].
    eapply frame_trans; [|apply IHl]. unfold drop_layout. destruct (is_layout _); repeat split. }
  eapply frame_trans; [|eapply (frame_trans _ _ _ (G (seq 1 (nlayers k1 - 1)) k1))].
  - fr.
  - destruct (Nat.eqb i 0); repeat split.
Qed.
Lemma do_swap_frame k dl i k' : do_swap k dl i = Ok k' -> frame k k'.
Proof.
  intros H. unfold do_swap in H. bstep H u Eu. bstep H u2 Eu2.
  destruct (l_toggled (k_ls k dl)); [|destruct (negb _); [|destruct (swap_slot _ _ _ _)]].
  - bstep H k1 E1. bstep H k3 E3. apply Ok_inj in H. subst k'. fr.
  - bstep H k1 E1. bstep H k3 E3. apply Ok_inj in H. subst k'. fr.
  - bstep H k1 E1. bstep H k3 E3. apply Ok_inj in H. subst k'. fr.
  - apply Ok_inj in H. subst. apply frame_refl.
Qed.
Lemma pd_frame : forall fuel k code d dl pressed time k',
  process_descriptor fuel k code d dl pressed time = Ok k' -> frame k k'.
Proof.
  induction fuel as [|fuel IH]; intros k code d dl pressed time k' H; [discriminate|].
  cbn [process_descriptor] in H. bstep H k0 E0. bstep H k1 E1. apply Ok_inj in H. subst k'.
  apply (frame_trans k k0).
  { destruct pressed; [|apply Ok_inj in E0; subst; apply frame_refl].
    apply pre_macro_only in E0 as [l [s [o ->]]]. repeat split. }
  apply (frame_trans k0 k1).
  2: { destruct pressed; repeat split. }
  clear E0 k. destruct d; try (apply Ok_inj in E1; subst; repeat split).
  - unfold pd_key in E1. bstep E1 k2 E2. apply Ok_inj in E1. subst k1.
    apply (frame_trans k0 k2); [|destruct (_ || _); repeat split].
    destruct pressed.
    + destruct (k_ks k0 code0); fr.
    + apply Ok_inj in E2. subst. fr.
  - unfold pd_oneshot in E1. destruct pressed; [|destruct (k_latch k0)].
    + bstep E1 k2 E2. apply Ok_inj in E1. subst. fr.
    + bstep E1 u Eu. destruct (_ =? 0)%Z; [apply Ok_inj in E1; subst|]; fr.
    + bstep E1 k2 E2. apply Ok_inj in E1. subst. fr.
  - unfold pd_oneshot in E1. destruct pressed; [|destruct (k_latch k0)].
    + bstep E1 k2 E2. apply Ok_inj in E1. subst. fr.
    + bstep E1 u Eu. destruct (_ =? 0)%Z; [apply Ok_inj in E1; subst|]; fr.
    + bstep E1 k2 E2. apply Ok_inj in E1. subst. fr.
  - unfold pd_layer in E1. bstep E1 k2 E2. apply Ok_inj in E1. subst k1. destruct pressed; fr.
  - unfold pd_swap in E1. destruct pressed.
    + bstep E1 k2 E2. apply Ok_inj in E1. subst. now apply do_swap_frame in E2.
    + apply Ok_inj in E1. subst. fr.
  - bstep E1 mm Em. unfold pd_swap in E1. destruct pressed.
    + bstep E1 k2 E2. apply Ok_inj in E1. subst. apply do_swap_frame in E2.
      eapply frame_trans; [exact E2|]. fr.
    + apply Ok_inj in E1. subst. destruct mm as [|[[] dt] [|]]; fr.
  - unfold pd_layer in E1. bstep E1 k2 E2. apply Ok_inj in E1. subst k1. destruct pressed; fr.
  - destruct pressed; [now apply setlayout_frame in E1|apply Ok_inj in E1; subst; apply frame_refl].
  - destruct pressed; [|apply Ok_inj in E1; subst; apply frame_refl]. fr.
  - destruct pressed; [|apply Ok_inj in E1; subst; apply frame_refl].
    bstep E1 mm Em. bstep E1 k2 E2. apply Ok_inj in E1. subst. fr.
  - bstep E1 ac Ea. destruct pressed.
    + bstep E1 k2 E2. apply Ok_inj in E1. subst. fr.
    + bstep E1 k2 E2. apply (frame_trans k0 k2); [clear E1; fr|].
      apply (frame_trans k2 (update_mods false k2 None 0)); [clear E1; fr|].
      set (k3 := update_mods false k2 None 0) in *. clearbody k3.
      destruct (_ && _) in E1; [|apply Ok_inj in E1; subst; apply frame_refl].
      assert (G : forall k1, (k4 <- process_descriptor fuel k3 code ac dl true time ;;
                   process_descriptor fuel k4 code ac dl false time) = Ok k1 -> frame k3 k1).
      { clear E1. intros k5 E5. bstep E5 k4 E4. eapply frame_trans; eapply IH; eauto. }
      destruct ac; try (apply G; exact E1).
      bstep E1 mm Em. apply Ok_inj in E1. subst. fr.
  - destruct pressed; [|apply Ok_inj in E1; subst; apply frame_refl].
    bstep E1 ac Ea. unfold set_pending in E1. fr.
  - destruct pressed; [|apply Ok_inj in E1; subst; apply frame_refl].
    bstep E1 ac Ea. unfold set_pending in E1. fr.
  - destruct pressed; [|apply Ok_inj in E1; subst; apply frame_refl].
    bstep E1 ac Ea. bstep E1 k2 E2. apply Ok_inj in E1. subst.
    apply (frame_trans k0 k2); [eapply IH; eauto|]. unfold cache_replace_d. destruct (cache_find _ _ _); fr.
  - unfold pd_toggle in E1. destruct pressed; [|apply Ok_inj in E1; subst; apply frame_refl].
    bstep E1 u Eu. bstep E1 k2 E2. destruct (l_toggled _); fr.
  - unfold pd_toggle in E1. destruct pressed; [|apply Ok_inj in E1; subst; apply frame_refl].
    bstep E1 u Eu. bstep E1 k2 E2. destruct (l_toggled _); fr.
  - unfold pd_macro in E1. destruct pressed; [|apply Ok_inj in E1; subst; apply frame_refl].
    bstep E1 mm Em. bstep E1 k2 E2. fr.
  - unfold pd_macro in E1. destruct pressed; [|apply Ok_inj in E1; subst; apply frame_refl].
    bstep E1 mm Em. bstep E1 k2 E2. fr.
  - destruct pressed; [|apply Ok_inj in E1; subst; apply frame_refl].
    bstep E1 cm Em. bstep E1 k2 E2. apply Ok_inj in E1. subst. fr.
  - destruct pressed; [|apply Ok_inj in E1; subst; apply frame_refl].
    bstep E1 ac Ea. bstep E1 ac2 Ea2. unfold set_pending in E1. fr.
Qed.

Lemma do_desc_frame k code d dl pressed time k' : do_desc k code d dl pressed time = Ok k' -> frame k k'.
Proof. apply pd_frame. Qed.
Lemma expire_frame k time k' : expire_oneshot k time = Ok k' -> frame k k'.
Proof.
  unfold expire_oneshot. intros H. destruct (_ && _); [|apply Ok_inj in H; subst; apply frame_refl].
  bstep H k1 E1. apply Ok_inj in H. subst. fr.
Qed.
Lemma run_macro_frame k code time k' : run_active_macro k code time = Ok k' -> frame k k'.
Proof.
  unfold run_active_macro. intros H. destruct (k_amacro k); [|apply Ok_inj in H; subst; apply frame_refl].
  destruct (negb _); [apply Ok_inj in H; subst; fr|].
  destruct (_ <=? _)%Z; [|apply Ok_inj in H; subst; apply frame_refl].
  bstep H mm Em. fr.
Qed.
Lemma cache_set_frame k code e k' : cache_set k code e = Some k' -> frame k k'.
Proof.
  unfold cache_set. intros H. destruct (cache_slot _ _ _ _); [|discriminate H]. injection H as <-. fr.
Qed.
Lemma handle_key_frame k code pressed time k' : handle_key k code pressed time = Ok k' -> frame k k'.
Proof.
  unfold handle_key. intros H. destruct (code =? 0)%N; [apply Ok_inj in H; subst; apply frame_refl|].
  destruct pressed.
  - destruct (cache_get k code); [apply Ok_inj in H; subst; apply frame_refl|].
    destruct (lookup_descriptor k code) as [d dl]. destruct (cache_set _ _ _) as [k1|] eqn:E.
    + apply cache_set_frame in E. apply do_desc_frame in H. eapply frame_trans; eauto.
    + apply Ok_inj in H; subst; apply frame_refl.
  - destruct (cache_get k code); [|apply Ok_inj in H; subst; apply frame_refl].
    destruct (cache_set _ _ _) as [k1|] eqn:E.
    + apply cache_set_frame in E. apply do_desc_frame in H. eapply frame_trans; eauto.
    + apply Ok_inj in H; subst; apply frame_refl.
Qed.
Lemma rest_frame k code pressed time k' : rest_step k code pressed time = Ok k' -> frame k k'.
Proof.
  unfold rest_step. intros H. bstep H k3 E3. bstep H k4 E4.
  apply expire_frame in E3. apply run_macro_frame in E4. apply handle_key_frame in H.
  eapply frame_trans; [exact E3|]. eapply frame_trans; eauto.
Qed.
Lemma decide_queue k p a time k' : decide k p a time = Ok k' ->
  p_queue (k_pend k') = [] /\ k_chord k' = k_chord k.
Proof.
  unfold decide. intros H. apply do_desc_frame in H as [_ [_ [A [_ [B _]]]]]. rewrite A, B.
  destruct (cache_set _ _ _) as [k1|] eqn:E; [|split; reflexivity].
  apply cache_set_frame in E as [_ [_ [C [_ [D _]]]]]. now rewrite C, D.
Qed.

(* the queued events that still matter: those of an attempt under way *)
Definition live (k : kbd) : list kev :=
  match h_state (k_chord k) with
  | CsDisambiguation | CsHold => h_queue (k_chord k)
  | _ => []
  end.
Lemma live_queue k e : In e (live k) -> In e (h_queue (k_chord k)).
Proof. unfold live. destruct (h_state _); auto; intros []. Qed.
Lemma chord_plan_live k code pressed time k' pl : chord_plan k code pressed time = Ok (k', pl) ->
  forall e, In e (live k') \/ In e (replays pl) -> In e (live k) \/ e = mkKev code pressed time.
Proof.
  intros H. pose proof (chord_plan_shape _ _ _ _ _ H) as [_ [B1 [B2 _]]].
  assert (G : h_queue (k_chord k) = live k ->
    forall e, In e (live k') \/ In e (replays pl) -> In e (live k) \/ e = mkKev code pressed time).
  { intros E e [He|He]; [apply live_queue, B1 in He|apply B2 in He]; rewrite E in He;
      destruct He as [He|[<-|[]]]; auto. }
  destruct (h_state (k_chord k)) eqn:Es; try (apply G; unfold live; rewrite Es; reflexivity).
  - unfold chord_plan in H. rewrite Es in H.
    destruct (if negb (code =? 0)%N && negb pressed then _ else _) as [i|].
    + destruct (chord_up k code i) as [k1 rem] eqn:Eu. unfold chord_up in Eu. injection Eu as <- <-.
      apply Ok_inj in H. injection H as <- <-. intros e. unfold live. cbn [k_chord set_k_achords]. rewrite Es.
      destruct (existsb _ _); intros [[]|[]].
    + apply Ok_inj in H. injection H as <- <-. intros e. unfold live. rewrite Es. intros [[]|[]].
  - destruct (if negb (code =? 0)%N && negb pressed then chord_of_key (k_achords k) code 0 else None) as [i|] eqn:Ei.
    + unfold chord_plan in H. rewrite Ei in H.
      destruct (chord_up k code i) as [k1 rem] eqn:Eu. unfold chord_up in Eu. injection Eu as <- <-.
      apply Ok_inj in H. injection H as <- <-. intros e. unfold live. cbn [k_chord set_k_achords]. rewrite Es.
      destruct (existsb _ _); intros [[]|[]].
    + clear B1 B2 G. set (k0 := set_k_chord (set_h_queue [] (k_chord k)) k).
      assert (H0 : chord_plan k0 code pressed time = Ok (k', pl)).
      { rewrite <- H. unfold chord_plan. cbn [k0 k_achords set_k_chord k_chord h_state set_h_queue].
        rewrite Ei, Es. reflexivity. }
      apply chord_plan_shape in H0 as [_ [B1 [B2 _]]].
      intros e [He|He]; [apply live_queue, B1 in He|apply B2 in He];
        destruct He as [[]|[<-|[]]]; auto.
Qed.

(* ---- the principle ------------------------------------------------------------------- *)
Section Simple.
Variable I : kbd -> Prop.
Variable Q : kev -> Prop.
Hypothesis q_tick : forall t, Q (mkKev 0 false t).
Hypothesis q_chord : forall k i p t, I k -> i < length (k_achords k) -> Q (mkKev (chord_code i) p t).
Hypothesis s_chord : forall k k', I k -> chord_changed k k' -> I k'.
Hypothesis s_pend : forall k q, I k -> p_code (k_pend k) <> 0%N -> I (set_k_pend (set_p_queue q (k_pend k)) k).
Hypothesis s_decide : forall k q a time k', I k -> p_code (k_pend k) <> 0%N ->
  a = p_a1 (k_pend k) \/ a = p_a2 (k_pend k) -> has_op a = true ->
  decide k (set_p_queue q (k_pend k)) a time = Ok k' -> I k'.
Hypothesis s_rest : forall k code pressed time k', I k -> Q (mkKev code pressed time) ->
  rest_step k code pressed time = Ok k' -> I k'.

Definition queued (k : kbd) : Prop := Forall Q (live k) /\ Forall Q (p_queue (k_pend k)).
Definition IQ (k : kbd) : Prop := I k /\ queued k.

Lemma pending_action_src p code pressed time : has_op (pending_action p code pressed time) = true ->
  pending_action p code pressed time = p_a1 p \/ pending_action p code pressed time = p_a2 p.
Proof.
  unfold pending_action. destruct (_ <=? _)%Z; auto. destruct (_ =? _)%N; auto.
  destruct (p_beh p); try (destruct (_ && _); auto); discriminate.
Qed.

Definition ev_ok (r : res (kbd * Z)) : Prop := forall k' t, r = Ok (k', t) -> IQ k'.
Lemma simple_loop pe : (forall k code pressed time, IQ k -> Q (mkKev code pressed time) ->
                          ev_ok (pe k code pressed time)) ->
  forall fuel k evs t ts, IQ k -> Forall Q evs -> ev_ok (pe_loop pe fuel k evs t ts).
Proof.
  intros Hpe. induction fuel as [|fuel IH]; intros k evs t ts Hk He k' t' H; destruct evs as [|ev rest];
    cbn [pe_loop] in H; try discriminate H.
  1, 2: apply Ok_inj in H; apply pair_equal_spec in H as [-> _]; exact Hk.
  destruct (_ && _) in H.
  - bstep H r E. destruct r as [k1 t1]. apply Hpe in E; auto. eapply IH; [exact E|exact He|exact H].
  - pose proof (Forall_inv He) as H1. pose proof (Forall_inv_tail He) as H2. bstep H r E. destruct r as [k1 t1].
    assert (Hk1 : IQ k1) by (eapply Hpe; [exact Hk| |exact E]; destruct ev; exact H1).
    eapply IH; [exact Hk1|exact H2|exact H].
Qed.
Lemma IQ_chord k code pressed time k' pl : IQ k -> Q (mkKev code pressed time) ->
  chord_plan k code pressed time = Ok (k', pl) -> IQ k' /\ Forall Q (replays pl)
  /\ forall i p t, chord_target pl = Some i -> Q (mkKev (chord_code i) p t).
Proof.
  intros [Hk [H1 H2]] Hq E. pose proof (chord_plan_live _ _ _ _ _ _ E) as A2.
  apply chord_plan_shape in E as [A1 [_ [_ A4]]].
  rewrite Forall_forall in H1.
  split; [split; [eapply s_chord; eauto|split]|split].
  - apply Forall_forall. intros e He. destruct (A2 e (or_introl He)) as [G| ->]; auto.
  - destruct A1 as [q [acs [ts [-> _]]]]. exact H2.
  - apply Forall_forall. intros e He. destruct (A2 e (or_intror He)) as [G| ->]; auto.
  - intros i p t Hi. apply (q_chord k); auto.
Qed.
Lemma IQ_inactive k : IQ k -> IQ (set_cstate CsInactive k).
Proof.
  intros [H1 [H2 H3]]. split; [|split; [constructor|auto]]. eapply s_chord; [exact H1|apply cc_chord].
Qed.
Lemma IQ_time k ts : IQ k -> IQ (set_k_timeouts ts k).
Proof.
  intros [H1 [H2 H3]]. split; [|split; auto]. eapply s_chord; [exact H1|].
  pose proof (cc_times k (k_chord k) ts) as C. now rewrite set_same_chord in C.
Qed.
Lemma IQ_pending k code pressed time k' pl : IQ k -> Q (mkKev code pressed time) ->
  pending_plan k code pressed time = Ok (k', pl) ->
  IQ k' /\ forall evs, pl = PReplay evs -> Forall Q evs.
Proof.
  intros [Hk [H1 H2]] Hq E. unfold pending_plan in E.
  destruct (N.eqb_spec (p_code (k_pend k)) 0) as [Hz|Hz].
  { apply Ok_inj in E. injection E as <- <-. split; [repeat split; auto|discriminate]. }
  destruct (_ && _) in E; [discriminate E|]. destruct (_ && _) in E.
  { apply Ok_inj in E. injection E as <- <-. split; [repeat split; auto|discriminate]. }
  set (q1 := if (code =? 0)%N then p_queue (k_pend k) else p_queue (k_pend k) ++ [mkKev code pressed time]) in *.
  assert (Ep : (if (code =? 0)%N then k_pend k
          else set_p_queue (p_queue (k_pend k) ++ [mkKev code pressed time]) (k_pend k))
          = set_p_queue q1 (k_pend k)).
  { subst q1. destruct (code =? 0)%N; auto. now destruct (k_pend k). }
  rewrite Ep in E.
  assert (Hq1 : Forall Q q1).
  { subst q1. destruct (code =? 0)%N; auto. apply Forall_app. auto. }
  destruct (has_op _) eqn:Eo.
  - bstep E k3 E3. apply Ok_inj in E. injection E as <- <-.
    pose proof (decide_queue _ _ _ _ _ E3) as [D1 D2].
    split; [split; [|split; [unfold live in *; now rewrite D2|rewrite D1; constructor]]|].
    + eapply s_decide; [exact Hk|exact Hz| |exact Eo|exact E3].
      apply pending_action_src in Eo as [Eo|Eo]; rewrite Eo; auto.
    + intros evs [= <-]. exact Hq1.
  - apply Ok_inj in E. injection E as <- <-. split; [|discriminate].
    split; [now apply s_pend|]. split; auto.
Qed.

Lemma simple_lift : forall fuel k code pressed time, IQ k -> Q (mkKev code pressed time) ->
  ev_ok (process_event fuel k code pressed time).
Proof.
  induction fuel as [|fuel IH]; intros k code pressed time Hk Hq k' t' H; [discriminate|].
  cbn [process_event] in H. rewrite process_event_plan in H.
  pose proof (simple_loop _ IH) as HL.
  bstep H r E. destruct r as [k1 b1].
  assert (Hk1 : IQ k1).
  { bstep E r E1. destruct r as [k2 pl]. apply IQ_chord in E1 as [A1 [A2 A3]]; auto.
    destruct pl as [| |i|press rest]; cbn [run_plan] in E.
    - apply Ok_inj in E. injection E as <- _. exact A1.
    - apply Ok_inj in E. injection E as <- _. exact A1.
    - bstep E r E2. destruct r as [k3 t3]. apply Ok_inj in E. injection E as <- _.
      eapply IH; [exact A1| |exact E2]. now apply A3.
    - bstep E k3 E3.
      assert (Hk3 : IQ k3).
      { destruct press as [i|]; [|apply Ok_inj in E3; subst; exact A1].
        bstep E3 r E4. destruct r as [k4 t4]. apply Ok_inj in E3. subst k4.
        eapply IH; [exact A1| |exact E4]. now apply A3. }
      destruct rest as [evs|]; [|discriminate E]. bstep E r E4. destruct r as [k4 t4].
      apply Ok_inj in E. injection E as <- _. apply IQ_inactive.
      eapply HL; [exact Hk3|exact A2|exact E4]. }
  destruct b1; [apply Ok_inj in H; unfold calculate_main_loop_timeout in H; injection H as <- _; now apply IQ_time|].
  clear E. unfold after_chord in H. bstep H r E. destruct r as [k2 b2].
  assert (Hk2 : IQ k2).
  { bstep E r E1. destruct r as [k3 pl]. apply IQ_pending in E1 as [A1 A2]; auto.
    destruct pl; cbn [run_pplan] in E.
    - apply Ok_inj in E. injection E as <- _. exact A1.
    - apply Ok_inj in E. injection E as <- _. exact A1.
    - bstep E r E4. destruct r as [k4 t4]. apply Ok_inj in E. injection E as <- _.
      eapply HL; [exact A1|exact (A2 evs eq_refl)|exact E4]. }
  destruct b2; [apply Ok_inj in H; unfold calculate_main_loop_timeout in H; injection H as <- _; now apply IQ_time|].
  bstep H k5 E5. apply Ok_inj in H. unfold calculate_main_loop_timeout in H. injection H as <- _.
  apply IQ_time. destruct Hk2 as [B1 [B2 B3]]. pose proof (rest_frame _ _ _ _ _ E5) as [_ [_ [F1 [_ [F2 _]]]]].
  split; [eapply s_rest; eauto|]. split; [unfold live in *; now rewrite F1|now rewrite F2].
Qed.
Lemma simple_events fuel k evs k' t : IQ k -> Forall Q evs ->
  kbd_process_events fuel k evs = Ok (k', t) -> IQ k'.
Proof.
  intros Hk He H. eapply simple_loop; [|exact Hk|exact He|exact H]. intros. now apply simple_lift.
Qed.
End Simple.
