(* A second invariant principle for process_event, for successful executions only:
   the rest of process_event may assume that the event passed the pending key, and
   events are known to carry acceptable times. *)
From Verif Require Import Base Lib Keys Types MacroExec Kbd Engine.

(* the event is not held back by an undecided key *)
Definition passed (k : kbd) (code : N) (pressed : bool) : Prop :=
  p_code (k_pend k) = 0%N
  \/ (code <> 0%N /\ pressed = false /\ code <> p_code (k_pend k)
      /\ forall e, In e (p_queue (k_pend k)) -> ev_code e <> code).
Lemma pending_plan_pass k code pressed time k' :
  pending_plan k code pressed time = Ok (k', PPass) -> k' = k /\ passed k code pressed.
Proof.
  unfold pending_plan. cbv zeta. intros H. destruct (N.eqb_spec (p_code (k_pend k)) 0) as [E|E].
  - injection H as <-. split; auto. now left.
  - destruct (_ && negb _) eqn:E1 in H; [discriminate|]. destruct (_ && _) eqn:E2 in H.
    + injection H as <-. split; auto. right. rewrite !andb_true_iff, !negb_true_iff in E2.
      destruct E2 as [[[B1 B2] B3] B4]. repeat split; [lia|exact B2|lia|].
      intros e He Hc. rewrite <- not_true_iff_false in B3. apply B3. apply existsb_exists. exists e. split; auto. lia.
    + destruct (has_op _) in H; [|discriminate]. bstep H k3 E3. discriminate.
Qed.

Section LiftOk.
Variable I : kbd -> Prop.
Variable Q : kev -> Prop.

Definition plan_fine (time : Z) (r : kbd * cplan) : Prop :=
  let '(k, pl) := r in
  match pl with
  | PlanPass | PlanTaken => I k
  | PlanRelease i => I k /\ Q (mkKev (chord_code i) false time)
  | PlanReplay press rest =>
      I k
      /\ (forall i, press = Some i -> Q (mkKev (chord_code i) true (h_last (k_chord k))))
      /\ forall evs, rest = Some evs -> Forall Q evs
  end.

Hypothesis q_tick : forall e t, Q e -> (t <= ev_time e)%Z -> Q (mkKev 0 false t).
Hypothesis q_chord : forall k code pressed time r,
  I k -> Q (mkKev code pressed time) -> chord_plan k code pressed time = Ok r -> plan_fine time r.
Hypothesis q_inactive : forall k, I k -> I (set_cstate CsInactive k).
Hypothesis q_pending : forall k code pressed time r,
  I k -> Q (mkKev code pressed time) -> pending_plan k code pressed time = Ok r -> pplan_ok I Q r.
Hypothesis q_rest : forall k code pressed time k',
  I k -> Q (mkKev code pressed time) -> passed k code pressed ->
  rest_step k code pressed time = Ok k' -> I k'.
Hypothesis q_time : forall k e, I k -> Q e ->
  I (set_k_timeouts (filter (fun t => (ev_time e <? t)%Z) (k_timeouts k)) k).

Lemma liftok_loop pe : (forall k code pressed time k' t, I k -> Q (mkKev code pressed time) ->
                        pe k code pressed time = Ok (k', t) -> I k') ->
  forall fuel k evs t ts k' t', I k -> Forall Q evs -> pe_loop pe fuel k evs t ts = Ok (k', t') -> I k'.
Proof.
  intros Hpe. induction fuel as [|fuel IH]; intros k evs t ts k' t' Hk He H; destruct evs as [|ev rest]; cbn [pe_loop] in H.
  1, 3: apply Ok_inj in H; injection H as <- _; exact Hk.
  - discriminate.
  - pose proof (Forall_inv He) as Hq. pose proof (Forall_inv_tail He) as Hr.
    destruct (_ && _) eqn:Eb.
    + bstep H r1 E1. destruct r1 as [k1 t1]. apply andb_true_iff in Eb as [_ Eb].
      apply IH in H; auto. eapply Hpe; [exact Hk| |exact E1]. eapply q_tick; [exact Hq|lia].
    + bstep H r1 E1. destruct r1 as [k1 t1]. apply IH in H; auto.
      eapply Hpe; [exact Hk| |exact E1]. destruct ev; exact Hq.
Qed.

Lemma liftok : forall fuel k code pressed time k' t, I k -> Q (mkKev code pressed time) ->
  process_event fuel k code pressed time = Ok (k', t) -> I k'.
Proof.
  induction fuel as [|fuel IH]; intros k code pressed time k' t Hk Hq H; [discriminate|].
  cbn [process_event] in H. rewrite process_event_plan in H.
  pose proof (liftok_loop _ IH) as HL. bstep H rb E1. destruct rb as [k1 b1].
  assert (Hc : forall k2 r, I k2 -> calculate_main_loop_timeout k2 time = r -> I (fst r)).
  { intros k2 r H2 <-. exact (q_time _ _ H2 Hq). }
  assert (Hk1 : I k1).
  { bstep E1 rp Ep. destruct rp as [k0 pl]. pose proof (q_chord _ _ _ _ _ Hk Hq Ep) as Hp.
    unfold plan_fine in Hp. destruct pl as [| |i|press rest]; cbn [run_plan] in E1.
    - apply Ok_inj in E1. injection E1 as <- _. exact Hp.
    - apply Ok_inj in E1. injection E1 as <- _. exact Hp.
    - bstep E1 r2 E2. destruct r2 as [k2 t2]. apply Ok_inj in E1. injection E1 as <- _.
      destruct Hp as [Hp1 Hp2]. eapply IH; eauto.
    - destruct Hp as [H1 [H2 H3]].
      bstep E1 k2 E2. destruct rest as [evs|]; [|discriminate E1]. specialize (H3 _ eq_refl). bstep E1 r3 E3. destruct r3 as [k3 t3]. apply Ok_inj in E1. injection E1 as <- _.
      apply q_inactive. eapply HL; [|exact H3|exact E3].
      destruct press as [i|]; [|apply Ok_inj in E2; now subst].
      bstep E2 r4 E4. destruct r4 as [k4 t4]. apply Ok_inj in E2. subst k4. exact (IH _ _ _ _ _ _ H1 (H2 _ eq_refl) E4). }
  destruct b1.
  - apply Ok_inj in H. pose proof (Hc _ _ Hk1 H) as X. exact X.
  - unfold after_chord in H. bstep H rb E2. destruct rb as [k2 b2].
    bstep E2 rp Ep. destruct rp as [k0 pl]. pose proof (q_pending _ _ _ _ _ Hk1 Hq Ep) as Hp.
    destruct pl as [| |evs]; cbn [run_pplan] in E2.
    + apply pending_plan_pass in Ep as [-> Hps]. apply Ok_inj in E2. injection E2 as <- <-.
      bstep H k5 E5. apply Ok_inj in H. apply (q_rest _ _ _ _ _ Hk1 Hq Hps) in E5.
      exact (Hc _ _ E5 H).
    + apply Ok_inj in E2. injection E2 as <- <-. apply Ok_inj in H. exact (Hc _ _ Hp H).
    + bstep E2 r4 E4. destruct r4 as [k4 t4]. apply Ok_inj in E2. injection E2 as <- <-.
      apply Ok_inj in H. destruct Hp as [Hp1 Hp2]. pose proof (HL _ _ _ _ _ _ _ Hp1 Hp2 E4) as X.
      exact (Hc _ _ X H).
Qed.

Lemma liftok_events fuel k evs k' t : I k -> Forall Q evs -> kbd_process_events fuel k evs = Ok (k', t) -> I k'.
Proof. intros. eapply liftok_loop; eauto. intros. eapply liftok; eauto. Qed.
End LiftOk.
