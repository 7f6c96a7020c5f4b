(* A held key keeps its binding while other keys are used. *)
From Verif Require Import Base Lib Keys Types MacroExec Kbd Config Steps Hist SpecTrace SpecMods SpecLookup
  SpecHist SpecActions SpecKept TraceProofs ModsProofs LookupProofs Engine SpecWf Wf ActProofs StepProofs OneProofs
  CacheProofs Inv ClassInv ParseWf WfHist.

(* the key whose decision is pending: unchanged or the key acted on *)
Lemma pd_pcode : forall fuel k code d dl pressed time k',
  process_descriptor fuel k code d dl pressed time = Ok k' ->
  p_code (k_pend k') = p_code (k_pend k) \/ p_code (k_pend k') = code.
Proof.
  induction fuel as [|fuel IH]; intros k code d dl pressed time k' H; [discriminate|].
  cbn [process_descriptor] in H. bstep H k0 E0. bstep H k1 E1. apply Ok_inj in H. subst k'.
  assert (E : k_pend k0 = k_pend k).
  { destruct pressed; [|apply Ok_inj in E0; now subst].
    apply pre_macro_only in E0 as [l [s [o ->]]]. reflexivity. }
  rewrite <- E. clear E0 E k.
  cut (p_code (k_pend k1) = p_code (k_pend k0) \/ p_code (k_pend k1) = code); [destruct pressed; auto|].
  destruct d; try (left; apply Ok_inj in E1; subst; reflexivity).
  - unfold pd_key in E1. bstep E1 k2 E2. apply Ok_inj in E1. subst k1.
    assert (G : k_pend k2 = k_pend k0).
    { destruct pressed; [destruct (k_ks k0 code0); norm_states; reflexivity|].
      apply Ok_inj in E2. subst. norm_states. reflexivity. }
    left. destruct (_ || _); cbn [k_pend set_k_last_simple]; now rewrite G.
  - unfold pd_oneshot in E1. destruct pressed; [|destruct (k_latch k0)].
    + bstep E1 k2 E2. apply Ok_inj in E1. subst. norm_states. now left.
    + bstep E1 u Eu. destruct (_ =? 0)%Z; [apply Ok_inj in E1; subst|]; norm_states; now left.
    + bstep E1 k2 E2. apply Ok_inj in E1. subst. norm_states. now left.
  - unfold pd_oneshot in E1. destruct pressed; [|destruct (k_latch k0)].
    + bstep E1 k2 E2. apply Ok_inj in E1. subst. norm_states. now left.
    + bstep E1 u Eu. destruct (_ =? 0)%Z; [apply Ok_inj in E1; subst|]; norm_states; now left.
    + bstep E1 k2 E2. apply Ok_inj in E1. subst. norm_states. now left.
  - unfold pd_layer in E1. bstep E1 k2 E2. apply Ok_inj in E1. subst k1. left. destruct pressed; norm_states; reflexivity.
  - left. unfold pd_swap in E1. destruct pressed; [|apply Ok_inj in E1; now subst].
    bstep E1 k2 E2. apply Ok_inj in E1. subst. unfold do_swap in E2. bstep E2 u Eu. bstep E2 u2 Eu2.
    destruct (l_toggled _); [|destruct (negb _); [|destruct (swap_slot _ _ _ _)]].
    + bstep E2 k2 E3. bstep E2 k3 E4. apply Ok_inj in E2. subst. norm_states. reflexivity.
    + bstep E2 k2 E3. bstep E2 k3 E4. apply Ok_inj in E2. subst. norm_states. reflexivity.
    + bstep E2 k2 E3. bstep E2 k3 E4. apply Ok_inj in E2. subst. norm_states. reflexivity.
    + apply Ok_inj in E2. now subst.
  - left. bstep E1 mm Em. unfold pd_swap in E1. destruct pressed.
    + bstep E1 k2 E2. apply Ok_inj in E1. subst.
      transitivity (p_code (k_pend k2)); [norm_states; reflexivity|].
      unfold do_swap in E2. bstep E2 u Eu. bstep E2 u2 Eu2.
      destruct (l_toggled _); [|destruct (negb _); [|destruct (swap_slot _ _ _ _)]].
      * bstep E2 k4 E3. bstep E2 k3 E4. apply Ok_inj in E2. subst. norm_states. reflexivity.
      * bstep E2 k4 E3. bstep E2 k3 E4. apply Ok_inj in E2. subst. norm_states. reflexivity.
      * bstep E2 k4 E3. bstep E2 k3 E4. apply Ok_inj in E2. subst. norm_states. reflexivity.
      * apply Ok_inj in E2. now subst.
    + apply Ok_inj in E1. subst. destruct mm as [|[[] dt] [|]]; norm_states; reflexivity.
  - unfold pd_layer in E1. bstep E1 k2 E2. apply Ok_inj in E1. subst k1. left. destruct pressed; norm_states; reflexivity.
  - left. destruct pressed; [|apply Ok_inj in E1; now subst]. unfold setlayout in E1.
    bstep E1 u Eu. bstep E1 k2 E2. apply Ok_inj in E1. subst k1.
    assert (G : forall l k, k_pend (fold_left drop_layout l k) = k_pend k).
    { clear. induction l; cbn [fold_left]; intros; auto. rewrite IHl. unfold drop_layout. now destruct (is_layout _). }
    transitivity (p_code (k_pend k2)).
    + destruct (Nat.eqb l 0); cbn [emit k_pend set_k_out set_lsi set_k_ls]; now rewrite G.
    + clear G. norm_states. reflexivity.
  - left. destruct pressed; [|apply Ok_inj in E1; now subst]. norm_states. reflexivity.
  - left. destruct pressed; [|apply Ok_inj in E1; now subst].
    bstep E1 mm Em. bstep E1 k2 E2. apply Ok_inj in E1. subst. norm_states. reflexivity.
  - bstep E1 ac Ea. destruct pressed.
    + left. bstep E1 k2 E2. apply Ok_inj in E1. subst. norm_states. reflexivity.
    + bstep E1 k2 E2. set (k3 := update_mods false k2 None 0) in *.
      assert (E3 : k_pend k3 = k_pend k0) by (subst k3; clear E1; norm_states; reflexivity).
      rewrite <- E3. clearbody k3.
      destruct (_ && _) in E1; [|apply Ok_inj in E1; subst; now left].
      assert (G : forall k1, (k4 <- process_descriptor fuel k3 code ac dl true time ;;
                   process_descriptor fuel k4 code ac dl false time) = Ok k1 ->
             p_code (k_pend k1) = p_code (k_pend k3) \/ p_code (k_pend k1) = code).
      { clear E1. intros k5 E5. bstep E5 k4 E4. apply IH in E4. apply IH in E5. intuition congruence. }
      destruct ac; try (apply G; exact E1).
      bstep E1 mm Em. apply Ok_inj in E1. subst. left. norm_states. reflexivity.
  - destruct pressed; [|apply Ok_inj in E1; subst; now left].
    bstep E1 ac Ea. unfold set_pending in E1. norm_states. now right.
  - destruct pressed; [|apply Ok_inj in E1; subst; now left].
    bstep E1 ac Ea. unfold set_pending in E1. norm_states. now right.
  - destruct pressed; [|apply Ok_inj in E1; subst; now left].
    bstep E1 ac Ea. bstep E1 k2 E2. apply Ok_inj in E1. subst. apply IH in E2.
    unfold cache_replace_d. destruct (cache_find _ _ _); auto.
  - left. unfold pd_toggle in E1. destruct pressed; [|apply Ok_inj in E1; now subst].
    bstep E1 u Eu. bstep E1 k2 E2. destruct (l_toggled _); norm_states; reflexivity.
  - left. unfold pd_toggle in E1. destruct pressed; [|apply Ok_inj in E1; now subst].
    bstep E1 u Eu. bstep E1 k2 E2. destruct (l_toggled _); norm_states; reflexivity.
  - left. unfold pd_macro in E1. destruct pressed; [|apply Ok_inj in E1; now subst].
    bstep E1 mm Em. bstep E1 k2 E2. norm_states; reflexivity.
  - left. unfold pd_macro in E1. destruct pressed; [|apply Ok_inj in E1; now subst].
    bstep E1 mm Em. bstep E1 k2 E2. norm_states; reflexivity.
  - left. destruct pressed; [|apply Ok_inj in E1; now subst].
    bstep E1 cm Em. bstep E1 k2 E2. apply Ok_inj in E1. subst. norm_states; reflexivity.
  - destruct pressed; [|apply Ok_inj in E1; subst; now left].
    bstep E1 ac Ea. bstep E1 ac2 Ea2. unfold set_pending in E1. norm_states. now right.
Qed.

Definition nonswap (d : desc) : Prop := is_swap d = false.
Lemma nonswap_closed : closed nonswap.
Proof. constructor; unfold nonswap; intros; try reflexivity; try discriminate. Qed.
Lemma no_swap_iff d : no_swap d <-> nonswap d.
Proof.
  unfold no_swap, nonswap. split.
  - intros H. destruct d; cbn [is_swap]; auto.
    + elim (proj1 (H l 0)); reflexivity.
    + elim (proj2 (H l m)); reflexivity.
  - intros H l m. split; intros ->; discriminate H.
Qed.
Lemma swap_free_all c : swap_free c <-> cfg_all nonswap c.
Proof.
  unfold swap_free, cfg_all. split; intros [H1 [H2 H3]]; (split; [|split]); intros;
    apply no_swap_iff; auto; eapply H2; eauto.
Qed.

Section Kept.
Variable sw : Prop.          (* swap may be in use *)
Variables (code : N) (d : desc) (dl l : nat).
Hypothesis Hcode : code <> 0%N.
Hypothesis Hl : ~ sw \/ l = 0.

Definition kept (k : kbd) : Prop :=
  (uniq (k_cache k) /\ length (k_achords k) <= 3 /\ (sw \/ alld nonswap k))
  /\ remembered k code d dl l /\ p_code (k_pend k) <> code.

Lemma evols_remembered c' k k' : c' <> code -> remembered k code d dl l -> evols sw c' k k' ->
  remembered k' code d dl l.
Proof.
  unfold remembered, evols. intros Hc H E. induction E as [|e e' r r' [E1 [E2 E3]] _ IH]; [destruct H|].
  destruct H as [->|H]; [left|right; auto].
  cbn [ce_code ce_layer] in E3. apply E3; auto.
Qed.
Lemma upd_remembered k i e : remembered k code d dl l -> i < length (k_cache k) ->
  ce_code (nth i (k_cache k) zero_ce) <> code ->
  remembered (set_k_cache (upd i e (k_cache k)) k) code d dl l.
Proof.
  unfold remembered. cbn [k_cache set_k_cache]. intros H Hi Hn.
  apply In_nth with (d := zero_ce) in H as [j [Hj E]].
  assert (i <> j). { intros ->. rewrite E in Hn. apply Hn. reflexivity. }
  rewrite <- E, <- (nth_upd_other i j e) by auto. apply nth_In. now rewrite upd_length.
Qed.
Lemma cache_set_kept k c' ent k' : c' <> code -> cache_set k c' ent = Some k' ->
  remembered k code d dl l -> remembered k' code d dl l.
Proof.
  intros Hc H R. apply cache_set_spec in H as [i [e [-> [Hi [Hx _]]]]]. apply upd_remembered; auto.
  destruct Hx as [->|[-> _]]; congruence.
Qed.
Lemma pd_kept fuel k c' d' dl' pressed time k' : c' <> code -> sw \/ nonswap d' ->
  process_descriptor fuel k c' d' dl' pressed time = Ok k' -> kept k -> kept k'.
Proof.
  intros Hc Hd H [[U [L A]] [R Hp]].
  pose proof (pd_frame _ _ _ _ _ _ _ _ H) as [F1 [F2 [F3 [F4 [F5 F6]]]]].
  pose proof (pd_pcode _ _ _ _ _ _ _ _ H) as P.
  split; [split; [eapply pd_uniq; eauto|split; [now rewrite F4|]]|split].
  - destruct A as [A|A]; auto. destruct Hd as [Hd|Hd]; auto. right.
    eapply pd_alld; eauto using nonswap_closed.
  - assert (E : evols sw c' k k').
    { eapply (pd_evols sw); eauto. destruct A as [A|A]; auto. destruct Hd as [Hd|Hd]; auto. right. split; auto.
      destruct A as [[_ [_ A]] _]. exact A. }
    exact (evols_remembered _ _ _ Hc R E).
  - destruct P as [->| ->]; auto.
Qed.
Lemma same_cache_kept k k' : kept k -> frame k k' -> cp k k' -> k_cache k' = k_cache k -> kept k'.
Proof.
  intros [[U [L A]] [R Hp]] F C E. pose proof F as [F1 [F2 [F3 [F4 [F5 F6]]]]].
  split; [split; [now rewrite E|split; [now rewrite F4|]]|split].
  - destruct A as [A|A]; auto. right. eapply alld_cp; eauto.
  - unfold remembered. now rewrite E.
  - destruct C as [-> _]. auto.
Qed.
Lemma cache_set_kept2 k c' ent k' : c' <> code -> cache_set k c' ent = Some k' ->
  (forall e, ent = Some e -> sw \/ nonswap (ce_d e)) -> kept k -> kept k'.
Proof.
  intros Hc H He [[U [L A]] [R Hp]].
  pose proof (cache_set_frame _ _ _ _ H) as [F1 [F2 [F3 [F4 [F5 F6]]]]].
  assert (Ep : k_pend k' = k_pend k).
  { apply cache_set_spec in H as [i [e [-> _]]]. reflexivity. }
  split; [split; [eapply cache_set_uniq; eauto|split; [now rewrite F4|]]|split].
  - destruct A as [A|A]; auto. destruct ent as [e|].
    + destruct (He e eq_refl) as [Hs|Hs]; auto. right.
      eapply cache_set_alld; eauto using nonswap_closed. now intros e0 [= <-].
    + right. eapply cache_set_alld; eauto using nonswap_closed. discriminate.
  - exact (cache_set_kept _ _ _ _ Hc H R).
  - now rewrite Ep.
Qed.

Lemma handle_key_kept k c' pressed time k' : c' <> code ->
  handle_key k c' pressed time = Ok k' -> kept k -> kept k'.
Proof.
  intros Hc H K. unfold handle_key in H. destruct (c' =? 0)%N; [apply Ok_inj in H; now subst|].
  destruct pressed.
  - destruct (cache_get k c'); [apply Ok_inj in H; now subst|].
    destruct (lookup_descriptor k c') as [d' dl'] eqn:El.
    assert (Hd : sw \/ nonswap d').
    { destruct K as [[_ [_ [K|K]]] _]; auto. right. eapply lookup_alld; eauto using nonswap_closed. }
    destruct (cache_set _ _ _) as [k1|] eqn:E; [|apply Ok_inj in H; now subst].
    eapply pd_kept; [exact Hc|exact Hd|exact H|]. eapply cache_set_kept2; eauto. now intros e [= <-].
  - destruct (cache_get k c') as [i|] eqn:Eg; [|apply Ok_inj in H; now subst].
    destruct (cache_set _ _ _) as [k1|] eqn:E; [|apply Ok_inj in H; now subst].
    eapply pd_kept; [exact Hc| |exact H|].
    + destruct K as [[_ [_ [K|K]]] _]; auto. right. destruct K as [_ [K _]]. apply K. apply in_map, nth_In.
      apply cache_find_at in Eg as [_ [Eg _]]. lia.
    + eapply cache_set_kept2; eauto. discriminate.
Qed.

Lemma events_kept fuel k evs k' t : physical code -> Forall (about_others code) evs ->
  kbd_process_events fuel k evs = Ok (k', t) -> kept k -> decided k code -> kept k' /\ decided k' code.
Proof.
  intros Hph He H K [D1 [D2 D3]].
  assert (G : IQ kept (about_others code) k').
  { apply (simple_events kept (about_others code)) with (fuel := fuel) (k := k) (evs := evs) (t := t); auto.
    - intros t0 Ex. apply Hcode. symmetry. exact Ex.
    - intros k0 i p t0 [[_ [L _]] _] Hi Ex. destruct Hph as [_ Hn]. apply Hn.
      cbn [ev_code] in Ex. rewrite <- Ex. unfold chord_code, K_CHORD_1, K_CHORD_MAX. lia.
    - intros k0 k1 [[U [L A]] [R Hp]] C. pose proof C as [q [acs [ts [-> [La _]]]]].
      split; [split; [exact U|split; [cbn; lia|]]|split; [exact R|exact Hp]].
      destruct A as [A|A]; auto. right. eapply chord_alld; eauto using nonswap_closed.
    - intros k0 q a time k1 K0 Hp Ha Ho Hd. unfold decide in Hd. cbn [p_code p_dl set_p_queue] in Hd.
      assert (Hpc : p_code (k_pend k0) <> code) by apply K0.
      assert (Hn : sw \/ nonswap a).
      { destruct K0 as [[_ [_ [K0|K0]]] _]; auto. right.
        destruct K0 as [_ [_ [_ [K1 K2]]]]. destruct Ha as [->| ->]; auto. }
      eapply pd_kept; [exact Hpc|exact Hn|exact Hd|].
      set (k2 := set_k_pend (set_p_code 0%N (set_p_queue [] (set_p_queue q (k_pend k0)))) k0).
      assert (K2 : kept k2).
      { destruct K0 as [[U [L A]] [R Hq]]. split; [split; [exact U|split; [exact L|exact A]]|split; [exact R|]].
        intros Ex. apply Hcode. symmetry. exact Ex. }
      destruct (cache_set k2 _ _) as [k3|] eqn:E; [|exact K2].
      eapply cache_set_kept2; eauto. now intros e [= <-].
    - intros k0 c' pressed time k1 K0 Hq Hr. unfold rest_step in Hr. bstep Hr k3 E3. bstep Hr k4 E4.
      eapply handle_key_kept; [exact Hq|exact Hr|].
      apply (same_cache_kept k3); [|eapply run_macro_frame; eauto|eapply run_macro_cp; eauto|eapply run_macro_cp; eauto].
      apply (same_cache_kept k0); [exact K0|eapply expire_frame; eauto|eapply expire_cp; eauto|eapply expire_cp; eauto].
    - split; auto. split; apply Forall_forall; auto. unfold live. intros e He0. apply D3.
      + unfold striking. destruct (h_state _); auto; destruct He0.
      + destruct (h_state _); auto; destruct He0. }
  destruct G as [G1 [G2 G3]]. split; auto. rewrite Forall_forall in *. split; [apply G1|]. split; auto.
  intros Hs e He1. apply G2. unfold live. destruct Hs as [-> | ->]; exact He1.
Qed.

Lemma meanwhile_kept (G : config -> Prop) k k' : physical code -> (sw \/ forall c, G c -> swap_free c) -> meanwhile G code k k' ->
  kept k -> decided k code -> kept k' /\ decided k' code.
Proof.
  intros Hph HG M. induction M as [k|k fuel evs k1 t k2 He H M IH|k exp k1 ok k2 H Hg M IH]; intros K D; auto.
  - destruct (events_kept _ _ _ _ _ Hph He H K D) as [K1 D1]. auto.
  - apply kbd_eval_shape in H as [c ->]. apply IH; [|exact D].
    destruct K as [[U [L A]] [R Hp]]. split; [split; [exact U|split; [exact L|]]|split; [exact R|exact Hp]].
    destruct A as [A|A]; auto. destruct HG as [HG|HG]; auto. right.
    destruct A as [_ A]. split; [|exact A]. apply swap_free_all. now apply HG.
Qed.
End Kept.

(* invariants of all histories *)
Lemma reach_uniq G c k : reach G c k -> uniq (k_cache k) /\ length (k_achords k) <= 3.
Proof.
  intros H. induction H as [clk|k fuel evs k' t Hr [U L] H|k exp k' ok Hr [U L] H HG|k k' Hr [U L] H].
  - split; [apply uniq_zero|]. cbn [new_keyboard k_achords]. rewrite repeat_length. lia.
  - split; [eapply events_uniq; eauto|].
    assert (X : IQ (fun k => length (k_achords k) <= 3) (fun _ => True) k').
    { eapply simple_events; [..|exact H]; auto.
      - intros k0 k1 H0 [q [acs [ts [-> [E _]]]]]. cbn. lia.
      - intros k0 q a time k1 H0 Hp Ha Ho Hd. unfold decide in Hd.
        apply do_desc_frame in Hd as [_ [_ [_ [-> _]]]].
        destruct (cache_set _ _ _) as [k2|] eqn:E; [|exact H0].
        apply cache_set_frame in E as [_ [_ [_ [-> _]]]]. exact H0.
      - intros k0 c' p t0 k1 H0 _ Hr1. apply rest_frame in Hr1 as [_ [_ [_ [-> _]]]]. exact H0.
      - split; auto. split; apply Forall_forall; auto.
      - apply Forall_forall; auto. }
    apply X.
  - apply kbd_eval_shape in H as [c' ->]. auto.
  - destruct H; auto.
Qed.
Lemma reach_alld (G : config -> Prop) P c k : closed P -> (forall c, G c -> cfg_all P c) -> reach G c k -> alld P k.
Proof.
  intros HP HG H. induction H as [clk Hk Hg|k fuel evs k' t Hr IH H|k exp k' ok Hr IH H Hg|k k' Hr IH H].
  - split; [apply HG, Hg|]. cbn [new_keyboard k_cache k_achords k_pend p_a1 p_a2].
    repeat split; try apply HP.
    + intros d Hd. apply in_map_iff in Hd as [e [<- Hd]]. apply repeat_spec in Hd. subst. apply HP.
    + intros ac Hac. apply repeat_spec in Hac. subst. apply HP.
  - eapply events_alld; eauto.
  - apply kbd_eval_shape in H as [c' ->]. destruct IH as [_ IH]. split; [apply HG, Hg|exact IH].
  - destruct H; exact IH.
Qed.

(* ---- events that pass the chord and pending stages --------------------------------- *)
(* the key takes no part in chords, or the event is a timer tick *)
Definition no_chord (k : kbd) (code : N) : Prop :=
  h_state (k_chord k) = CsInactive /\ (code = 0%N \/ unchorded k code).
Lemma chord_plan_open k code pressed time : no_chord k code ->
  chord_plan k code pressed time = Ok (chord_seen k code pressed time, PlanPass).
Proof.
  intros [Hs Hu]. destruct Hu as [->|Hu].
  - unfold chord_plan. cbn [N.eqb negb andb]. rewrite Hs.
    unfold enqueue_chord_event. cbn [N.eqb bind].
    set (k0 := set_k_chord (set_h_match None (set_h_queue [] (k_chord k))) k).
    rewrite (check_chord_match_none k0); [reflexivity|]. intros i ch _ _ _. reflexivity.
  - pose proof (handle_chord_idle (fun _ _ _ _ => NoFuel) (fun _ _ => NoFuel) k code pressed time Hs Hu) as H.
    rewrite handle_chord_plan in H. bstep H r E. destruct r as [k1 pl].
    destruct pl as [| |i|press rest]; cbn [run_plan] in H.
    + apply Ok_inj in H. injection H as <-. exact E.
    + apply Ok_inj in H. discriminate H.
    + discriminate H.
    + bstep H k2 E2. destruct rest; discriminate H.
Qed.
Definition passes_pending (k : kbd) (code : N) (pressed : bool) : Prop :=
  p_code (k_pend k) = 0%N
  \/ (code <> 0%N /\ pressed = false /\ p_code (k_pend k) <> code
      /\ (forall e, In e (p_queue (k_pend k)) -> ev_code e <> code)).
Lemma process_event_open fuel k code pressed time r :
  no_chord k code -> passes_pending k code pressed ->
  process_event (S fuel) k code pressed time = Ok r ->
  exists k1, rest_step (chord_seen k code pressed time) code pressed time = Ok k1
    /\ r = calculate_main_loop_timeout k1 time.
Proof.
  intros Hc Hp H. cbn [process_event] in H. rewrite process_event_plan in H.
  rewrite chord_plan_open in H by exact Hc. cbn [bind run_plan] in H.
  unfold after_chord in H.
  assert (E : pending_plan (chord_seen k code pressed time) code pressed time
     = Ok (chord_seen k code pressed time, PPass)
     \/ exists c, pending_plan (chord_seen k code pressed time) code pressed time = Crash c).
  { unfold pending_plan. cbn [k_pend chord_seen set_k_chord].
    destruct Hp as [->|[H1 [-> [H2 H3]]]]; [now left|].
    destruct (_ =? 0)%N; [now left|]. destruct (_ && _) eqn:Ea; [right; eauto|]. left.
    replace (existsb _ _) with false.
    - destruct (N.eqb_spec code 0); [congruence|]. destruct (N.eqb_spec code (p_code (k_pend k))); [congruence|].
      reflexivity.
    - symmetry. apply not_true_is_false. intros Ex. apply existsb_exists in Ex as [e [Ex1 Ex2]].
      apply N.eqb_eq in Ex2. exact (H3 e Ex1 Ex2). }
  destruct E as [E|[c E]]; rewrite E in H; cbn [bind run_pplan] in H; [|discriminate H].
  bstep H k1 E1. apply Ok_inj in H. eauto.
Qed.
Lemma rest_nothing k code pressed time : nothing_due k time ->
  rest_step k code pressed time = handle_key k code pressed time.
Proof.
  intros [Ho Hm]. unfold rest_step, expire_oneshot.
  replace (negb (k_oneshot_to k =? 0)%Z && (k_oneshot_to k <=? time)%Z) with false by lia.
  cbn [bind]. unfold run_active_macro. now rewrite Hm.
Qed.

Lemma remembered_find k code d dl l : uniq (k_cache k) -> code <> 0%N -> remembered k code d dl l ->
  exists i, cache_find (k_cache k) code 0 = Some i /\ nth i (k_cache k) zero_ce = mkCe code d dl l.
Proof.
  intros U Hc R. apply In_nth with (d := zero_ce) in R as [j [Hj E]].
  assert (G : exists i, cache_find (k_cache k) code 0 = Some i).
  { assert (G : forall c n, In (mkCe code d dl l) c -> exists i, cache_find c code n = Some i).
    { clear. induction c as [|e r IH]; cbn [cache_find]; intros n H; [destruct H|].
      destruct (ce_code e =? code)%N eqn:Ee; eauto. destruct H as [->|H]; eauto.
      cbn [ce_code] in Ee. rewrite N.eqb_refl in Ee. discriminate. }
    apply G. rewrite <- E. now apply nth_In. }
  destruct G as [i Hi]. exists i. split; auto.
  apply cache_find_at in Hi as [_ [Hi E2]]. rewrite Nat.sub_0_r in E2.
  rewrite <- E. f_equal. apply (U i j); rewrite ?E2, ?E; auto; lia.
Qed.

Lemma release_decided fuel k code time d dl l k' t :
  uniq (k_cache k) -> code <> 0%N -> remembered k code d dl l -> decided k code ->
  h_state (k_chord k) = CsInactive -> unchorded k code -> nothing_due k time ->
  process_event fuel k code false time = Ok (k', t) ->
  exists q ca k1, h_state q = h_state (k_chord k)
    /\ do_desc (set_k_cache ca (set_k_chord q k)) code d dl false time = Ok k1
    /\ k' = set_k_timeouts (filter (fun x => (time <? x)%Z) (k_timeouts k1)) k1.
Proof.
  intros U Hc0 R D Hs Hu Hd H. destruct fuel; [discriminate|].
  apply process_event_open in H as [k1 [E H]]; [|split; auto|right; repeat split; auto; apply D].
  rewrite rest_nothing in E by exact Hd.
  unfold handle_key in E. destruct (N.eqb_spec code 0); [congruence|].
  destruct (remembered_find _ _ _ _ _ U Hc0 R) as [j [Hj Ej]].
  unfold cache_get in E. cbn [k_cache chord_seen set_k_chord] in E. rewrite Hj in E.
  unfold cache_set in E. cbn [k_cache chord_seen set_k_chord] in E.
  rewrite (cache_slot_find _ _ _ None _ Hj) in E.
  unfold cache_nth in E. cbn [k_cache chord_seen set_k_chord plus] in E. rewrite Ej in E. cbn [ce_d ce_dl] in E.
  unfold calculate_main_loop_timeout in H. apply pair_equal_spec in H as [H _].
  eexists _, _, k1. split; [|split; [exact E|exact H]]. reflexivity.
Qed.

(* ---- what the press leaves behind ---------------------------------------------------- *)
Lemma pd_fixed_cp fuel k code d dl time k' : fixed_at_press d ->
  process_descriptor fuel k code d dl true time = Ok k' -> cp k k'.
Proof.
  destruct fuel; [discriminate|]. intros Hd H.
  cbn [process_descriptor] in H. bstep H k0 E0. bstep H k1 E1. apply Ok_inj in H. subst k'.
  apply (cp_trans k k0).
  { apply pre_macro_only in E0 as [l [s [o ->]]]. split; reflexivity. }
  cut (cp k0 k1); [intros [A B]; split; auto|]. clear E0 k.
  destruct d; try (destruct Hd; fail); try (apply Ok_inj in E1; subst; apply cp_refl).
  - unfold pd_key in E1. bstep E1 k2 E2. apply Ok_inj in E1. subst k1.
    assert (G : cp k0 k2) by (destruct (k_ks k0 code0); cpt).
    destruct (_ || _); [destruct G as [A B]; split; auto|exact G].
  - unfold pd_oneshot in E1. bstep E1 k2 E2. apply Ok_inj in E1. subst. cpt.
  - unfold pd_oneshot in E1. bstep E1 k2 E2. apply Ok_inj in E1. subst. cpt.
  - unfold pd_layer in E1. bstep E1 k2 E2. apply Ok_inj in E1. subst k1. cpt.
  - unfold pd_layer in E1. bstep E1 k2 E2. apply Ok_inj in E1. subst k1. cpt.
  - unfold setlayout in E1. bstep E1 u Eu. bstep E1 k2 E2. apply Ok_inj in E1. subst k1.
    assert (G : forall l k, cp k (fold_left drop_layout l k)).
    { clear. induction l; cbn [fold_left]; intros; [apply cp_refl|]. eapply cp_trans; [|apply IHl].
      unfold drop_layout. destruct (is_layout _); split; reflexivity. }
    apply (cp_trans k0 k2); [clear G; cpt|]. destruct (Nat.eqb l 0);
      match goal with |- cp _ (emit _ (?f (fold_left ?g ?l ?k))) => pose proof (G l k) as [A B]
      | |- cp _ (emit _ (fold_left ?g ?l ?k)) => pose proof (G l k) as [A B]
      | |- cp _ (emit _ (set_lsi ?a ?b (fold_left ?g ?l ?k))) => pose proof (G l k) as [A B] end;
      split; auto.
  - cpt.
  - bstep E1 mm Em. bstep E1 k2 E2. apply Ok_inj in E1. subst. cpt.
  - bstep E1 ac Ea. bstep E1 k2 E2. apply Ok_inj in E1. subst. cpt.
  - unfold pd_toggle in E1. bstep E1 u Eu. bstep E1 k2 E2. destruct (l_toggled _); cpt.
  - unfold pd_toggle in E1. bstep E1 u Eu. bstep E1 k2 E2. destruct (l_toggled _); cpt.
  - unfold pd_macro in E1. bstep E1 mm Em. bstep E1 k2 E2. cpt.
  - unfold pd_macro in E1. bstep E1 mm Em. bstep E1 k2 E2. cpt.
  - bstep E1 cm Em. bstep E1 k2 E2. apply Ok_inj in E1. subst. cpt.
  - apply Ok_inj in E1. subst. split; reflexivity.
  - apply Ok_inj in E1. subst. split; reflexivity.
Qed.

Lemma pd_plain_cache fuel k code d dl time k' : fixed_at_press d -> holds_no_layer d ->
  process_descriptor fuel k code d dl true time = Ok k' -> k_cache k' = k_cache k.
Proof.
  destruct fuel; [discriminate|]. intros Hd Hl H.
  cbn [process_descriptor] in H. bstep H k0 E0. bstep H k1 E1. apply Ok_inj in H. subst k'.
  apply pre_macro_only in E0 as [l [s [o ->]]].
  match type of E1 with context [kk l s o k] => set (k0 := kk l s o k) in E1 end.
  change (k_cache k) with (k_cache k0). cbn [k_cache set_k_last_code]. clearbody k0. clear k l s o.
  destruct d; try (destruct Hd; fail); try (destruct Hl; fail); try (apply Ok_inj in E1; subst; reflexivity).
  - unfold pd_key in E1. bstep E1 k2 E2. apply Ok_inj in E1. subst k1.
    assert (G : k_cache k2 = k_cache k0) by (destruct (k_ks k0 code0); norm_states; reflexivity).
    destruct (_ || _); exact G.
  - now apply setlayout_cache in E1.
  - now apply clear_cache in E1.
  - bstep E1 mm Em. bstep E1 k2 E2. apply Ok_inj in E1. subst. norm_states. reflexivity.
  - unfold pd_macro in E1. bstep E1 mm Em. bstep E1 k2 E2. norm_states. reflexivity.
  - unfold pd_macro in E1. bstep E1 mm Em. bstep E1 k2 E2. norm_states. reflexivity.
  - bstep E1 cm Em. bstep E1 k2 E2. apply Ok_inj in E1. subst. norm_states. reflexivity.
Qed.

(* between histories, p_queue is empty unless a key is undecided *)
Lemma reach_pqueue G c k : reach G c k -> p_code (k_pend k) = 0%N -> p_queue (k_pend k) = [].
Proof.
  intros H. induction H as [clk|k fuel evs k' t Hr IH H|k exp k' ok Hr IH H HG|k k' Hr IH H].
  - reflexivity.
  - assert (X : IQ (fun k => p_code (k_pend k) = 0%N -> p_queue (k_pend k) = []) (fun _ => True) k').
    { eapply simple_events; [..|exact H]; auto.
      - intros k0 k1 H0 [q [acs [ts [-> _]]]]. exact H0.
      - intros k0 q H0 Hp Hz. elim Hp. exact Hz.
      - intros k0 q a time k1 H0 Hp Ha Ho Hd _. now apply decide_queue in Hd.
      - intros k0 c' p t0 k1 H0 _ Hr1 Hz. pose proof (rest_frame _ _ _ _ _ Hr1) as [_ [_ [_ [_ [-> _]]]]].
        apply H0. unfold rest_step in Hr1. bstep Hr1 k3 E3. bstep Hr1 k4 E4.
        apply expire_cp in E3 as [[<- _] _]. apply run_macro_cp in E4 as [[<- _] _].
        unfold handle_key in Hr1. destruct (N.eqb_spec c' 0) as [_|Hn]; [apply Ok_inj in Hr1; now subst|].
        destruct p.
        + destruct (cache_get k4 c'); [apply Ok_inj in Hr1; now subst|].
          destruct (lookup_descriptor k4 c') as [d' dl'].
          destruct (cache_set _ _ _) as [k5|] eqn:E; [|apply Ok_inj in Hr1; now subst].
          apply cache_set_spec in E as [i [e [-> _]]]. apply pd_pcode in Hr1 as [Hr1|Hr1]; [|congruence].
          rewrite Hr1 in Hz. exact Hz.
        + destruct (cache_get k4 c'); [|apply Ok_inj in Hr1; now subst].
          destruct (cache_set _ _ _) as [k5|] eqn:E; [|apply Ok_inj in Hr1; now subst].
          apply cache_set_spec in E as [i [e [-> _]]]. apply pd_pcode in Hr1 as [Hr1|Hr1]; [|congruence].
          rewrite Hr1 in Hz. exact Hz.
      - split; auto. split; apply Forall_forall; auto.
      - apply Forall_forall; auto. }
    apply X.
  - apply kbd_eval_shape in H as [c' ->]. exact IH.
  - destruct H; exact IH.
Qed.

Lemma holds_no_layer_dec d : holds_no_layer d \/ ~ holds_no_layer d.
Proof. destruct d; cbn; auto. Qed.
Lemma press_remembers (G : config -> Prop) c fuel k code time d dl k1 t1 :
  reach G c k -> ready k code time -> resolves k code d dl -> fixed_at_press d ->
  process_event fuel k code true time = Ok (k1, t1) ->
  decided k1 code /\ exists l, remembered k1 code d dl l /\ (holds_no_layer d -> l = 0).
Proof.
  intros Hr Hy Hres Hf H.
  pose proof (press_do _ _ _ _ _ _ _ _ (proj2 (reach_times _ _ _ Hr)) Hy Hres H) as [k0 [k2 [P [E ->]]]].
  destruct P as [q [i [-> [Hi [Hz Hq]]]]].
  destruct Hy as [[Hc0 Hcc] [[Hp Hs] [Hu [Hd [Hh Hrm]]]]].
  set (k0 := set_k_cache _ _) in *.
  assert (Hin : In (mkCe code d dl 0) (k_cache k0)).
  { subst k0. cbn [k_cache set_k_cache]. rewrite <- (nth_upd_same i (mkCe code d dl 0) zero_ce (k_cache k) Hi) at 1.
    apply nth_In. now rewrite upd_length. }
  assert (U : uniq (k_cache k0)).
  { subst k0. cbn [k_cache set_k_cache]. apply uniq_upd; [apply (reach_uniq _ _ _ Hr)|exact Hi|].
    right. right. exact Hh. }
  pose proof (pd_fixed_cp _ _ _ _ _ _ _ Hf E) as [C1 C2].
  pose proof (do_desc_frame _ _ _ _ _ _ _ E) as [F1 [F2 [F3 [F4 [F5 F6]]]]].
  assert (V : evols True code k0 k2) by (eapply (pd_evols True); eauto).
  split.
  - split; [|split].
    + cbn [k_pend set_k_timeouts]. rewrite C1. subst k0. cbn [k_pend set_k_cache set_k_chord]. rewrite Hp. auto.
    + cbn [k_pend set_k_timeouts]. rewrite F5. subst k0. cbn [k_pend set_k_cache set_k_chord].
      rewrite (reach_pqueue _ _ _ Hr Hp). intros e [].
    + intros [Hx|Hx]; cbn [k_chord set_k_timeouts] in Hx; rewrite F3 in Hx; subst k0;
        cbn [k_chord set_k_cache set_k_chord] in Hx; congruence.
  - assert (G1 : exists l, In (mkCe code d dl l) (k_cache k2)).
    { unfold evols in V. clear -Hin V C2. revert C2.
      induction V as [|e e' r r' [E1 [E2 E3]] V IH]; intros C2; [destruct Hin|].
      cbn [map] in C2. injection C2 as C2 C3. destruct Hin as [->|Hin].
      - exists (ce_layer e'). left. destruct e'; cbn in *; congruence.
      - destruct (IH Hin C3) as [l Hl]. exists l. now right. }
    destruct G1 as [l Hl]. destruct (holds_no_layer_dec d) as [Hn|Hn].
    + exists 0. split; auto. unfold remembered. cbn [k_cache set_k_timeouts].
      rewrite (pd_plain_cache _ _ _ _ _ _ _ Hf Hn E). exact Hin.
    + exists l. split; [exact Hl|]. intros; contradiction.
Qed.

(* ---- checking classes of configurations in examples --------------------------------------- *)
Definition cfg_allb (p : desc -> bool) (c : config) : bool :=
  p DNone
  && forallb (fun l => forallb (fun x => p (ly_keymap l (N.of_nat x))) (seq 0 256)
                       && forallb (fun ch => p (ch_d ch)) (ly_chords l)) (c_layers c)
  && forallb p (c_descs c).
Lemma cfg_allb_ok (P : desc -> Prop) p c : inv c -> (forall d, p d = true -> P d) ->
  cfg_allb p c = true -> cfg_all P c.
Proof.
  intros [W _] HP H. unfold cfg_allb in H. rewrite !andb_true_iff, !forallb_forall in H.
  destruct H as [[H0 H1] H2].
  assert (HL : forall i, (exists l, In l (c_layers c) /\ nth i (c_layers c) zero_layer = l)
     \/ nth i (c_layers c) zero_layer = zero_layer).
  { intros i. destruct (Nat.lt_ge_cases i (length (c_layers c))) as [L|L].
    - left. eexists. split; [apply nth_In, L|reflexivity].
    - right. now apply nth_overflow. }
  split; [|split].
  - intros i x. apply HP. destruct (HL i) as [[l [Hl ->]]| ->]; [|exact H0].
    specialize (H1 l Hl). rewrite andb_true_iff, !forallb_forall in H1. destruct H1 as [H1 _].
    destruct (N.lt_ge_cases x 256) as [L|L].
    + specialize (H1 (N.to_nat x)). rewrite N2Nat.id in H1. apply H1. apply in_seq. lia.
    + now rewrite (wl_codes _ _ (wf_layers _ W l Hl) x L).
  - intros i ch Hc. apply HP. destruct (HL i) as [[l [Hl El]]|El]; rewrite El in Hc; [|destruct Hc].
    specialize (H1 l Hl). rewrite andb_true_iff, !forallb_forall in H1. now apply H1.
  - auto.
Qed.
Lemma cfg_of_inv text : parsesb text = true -> inv (cfg_of text).
Proof. intros H. apply parsesb_ok in H. eapply config_parse_inv; eauto. Qed.
Definition nonswapb (d : desc) : bool := negb (is_swap d).
Lemma swap_free_check text : parsesb text = true -> cfg_allb nonswapb (cfg_of text) = true ->
  swap_free (cfg_of text).
Proof.
  intros H1 H2. apply swap_free_all. eapply cfg_allb_ok; [apply cfg_of_inv, H1| |exact H2].
  intros d Hd. unfold nonswapb in Hd. now apply negb_true_iff in Hd.
Qed.
