(* A chord that has fired: it keeps its slot and its action until its last key is released. *)
From Verif Require Import Base Lib Keys Types MacroExec Kbd Config Engine Hist Steps SpecMods SpecLookup SpecActions
  SpecHist SpecTerm SpecKept SpecChord ModsProofs ActProofs LookupProofs OneProofs CacheProofs ClassInv Inv LiftOk
  KeptProofs StepProofs TermProofs DeferProofs ChordBare ChordProofs.

Lemma nth_error_upd_other {A} (l : list A) i j x : i <> j -> nth_error (upd i x l) j = nth_error l j.
Proof.
  revert i j. induction l as [|a l IH]; intros [|i] [|j] H; cbn [upd nth_error]; try reflexivity; try congruence.
  apply IH. congruence.
Qed.
Lemma nth_error_upd_same {A} (l : list A) i x : i < length l -> nth_error (upd i x l) i = Some x.
Proof.
  revert i. induction l as [|a l IH]; intros [|i] H; cbn [upd nth_error length] in *; try lia; [reflexivity|].
  apply IH. lia.
Qed.
Lemma chord_of_key_at : forall acs code n i, chord_of_key acs code n = Some i -> n <= i
  /\ (exists a, nth_error acs (i - n) = Some a /\ ac_active a = true /\ In code (ch_keys (ac_chord a)))
  /\ forall j a, j < i - n -> nth_error acs j = Some a -> ac_active a = true -> ~ In code (ch_keys (ac_chord a)).
Proof.
  induction acs as [|a acs IH]; intros code n i H; cbn [chord_of_key] in H; [discriminate|].
  destruct (ac_active a && in_keys code (ch_keys (ac_chord a))) eqn:E.
  - injection H as <-. apply andb_true_iff in E as [E1 E2]. apply in_keys_spec in E2. rewrite Nat.sub_diag.
    split; [lia|]. split; [exists a; auto|]. intros j a' Hj. lia.
  - apply IH in H as [H1 [[b [H2 H3]] H4]]. split; [lia|]. replace (i - n) with (S (i - S n)) by lia. split.
    + exists b. split; [exact H2|exact H3].
    + intros [|j] a' Hj Ha Hact; cbn [nth_error] in Ha.
      * injection Ha as <-. intros Hin. apply in_keys_spec in Hin. rewrite Hact, Hin in E. discriminate.
      * apply (H4 j a'); auto. lia.
Qed.
Lemma chord_of_key_first k s x : first_slot k s x ->
  (exists a, nth_error (k_achords k) s = Some a /\ ac_active a = true /\ In x (ch_keys (ac_chord a))) ->
  chord_of_key (k_achords k) x 0 = Some s.
Proof.
  unfold first_slot. intros H1 H2.
  assert (G : forall acs n s, (forall j a, j < s -> nth_error acs j = Some a -> ac_active a = true -> ~ In x (ch_keys (ac_chord a))) ->
    (exists a, nth_error acs s = Some a /\ ac_active a = true /\ In x (ch_keys (ac_chord a))) ->
    chord_of_key acs x n = Some (n + s)).
  { clear. induction acs as [|a acs IH]; intros n s H1 [b [H2 [H3 H4]]]; [destruct s; discriminate|].
    cbn [chord_of_key]. destruct s as [|s]; cbn [nth_error] in H2.
    - injection H2 as ->. rewrite H3. apply in_keys_spec in H4. rewrite H4. cbn [andb]. now rewrite Nat.add_0_r.
    - assert (E : ac_active a && in_keys x (ch_keys (ac_chord a)) = false).
      { destruct (ac_active a) eqn:Ea; [|reflexivity]. destruct (in_keys _ _) eqn:Ei; [|reflexivity].
        apply in_keys_spec in Ei. elim (H1 0 a); auto. lia. }
      rewrite E. rewrite (IH (S n) s); [f_equal; lia| |eauto]. intros j a' Hj Ha. apply (H1 (S j)); auto. lia. }
  exact (G _ 0 s H1 H2).
Qed.

Lemma code_some s : slot_code s <> 0%N.
Proof. unfold slot_code, K_CHORD_1. lia. Qed.

Section Slot.
Variables (s : nat) (x : N) (d : desc) (i : nat).
Hypothesis x_phys : physical x.
Lemma x_some : x <> 0%N.
Proof. apply x_phys. Qed.
Let here (k : kbd) : Prop := in_slot k s x d i.
Definition slot_fine (r : kbd * cplan) : Prop :=
  here (fst r) /\ forall j, chord_target (snd r) = Some j -> j <> s.

Lemma here_upd k j a : here k -> j <> s -> here (set_k_achords (upd j a (k_achords k)) k).
Proof.
  intros [ks [H1 H2]] Hj. exists ks. split; [|exact H2]. cbn [k_achords set_k_achords]. now rewrite nth_error_upd_other.
Qed.
Lemma resolve_slot k r : resolve_plan k = Ok r -> here k -> slot_fine r.
Proof.
  unfold resolve_plan. cbv zeta. intros H Hk. change (h_match (k_chord (set_cstate CsResolving k))) with (h_match (k_chord k)) in H.
  destruct (h_match (k_chord k)) as [p|].
  - bstep H ch Ed. change (k_achords (set_cstate CsResolving k)) with (k_achords k) in H.
    destruct (free_chord (k_achords k) 0) as [j|] eqn:Ef; [|discriminate]. apply Ok_inj in H. subst r.
    apply free_slot_of in Ef as [_ [[a [Ea Eb]] _]]. rewrite Nat.sub_0_r in Ea.
    assert (Hj : j <> s). { intros ->. destruct Hk as [ks [Hk _]]. rewrite Hk in Ea. injection Ea as <-. discriminate Eb. }
    split; cbn [fst snd chord_target].
    + destruct Hk as [ks [H1 H2]]. exists ks. split; [|exact H2]. cbn [k_achords set_k_achords]. now rewrite nth_error_upd_other.
    + now intros j' [= <-].
  - apply Ok_inj in H. subst r. split; [exact Hk|discriminate].
Qed.
Lemma abort_slot k r : abort_plan k = Ok r -> here k -> slot_fine r.
Proof. unfold abort_plan. intros H Hk. eapply resolve_slot; [exact H|exact Hk]. Qed.
Lemma sched_here k t k' : schedule_timeout k t = Ok k' -> here k -> here k'.
Proof. intros H Hk. apply schedule_ok in H. subst k'. exact Hk. Qed.
Lemma matched_slot k c t r : matched_plan k c t = Ok r -> here k -> slot_fine r.
Proof.
  unfold matched_plan. cbv zeta. intros H Hk. destruct c; try (bstep H k2 E2; apply Ok_inj in H; subst r; split;
    [eapply sched_here; [exact E2|exact Hk]|discriminate]).
  destruct (_ =? 0)%Z.
  - eapply resolve_slot; [exact H|exact Hk].
  - bstep H k2 E2. apply Ok_inj in H. subst r. split; [eapply sched_here; [exact E2|exact Hk]|discriminate].
Qed.
Lemma check_here k c k' : check_chord_match k = (c, k') -> here k -> here k'.
Proof.
  intros H Hk. assert (E : k_achords k' = k_achords k).
  { unfold check_chord_match in H. destruct (fold_left _ _ _) as [[[[li ci]|] tm] part] in H;
      apply pair_equal_spec in H as [_ <-]; reflexivity. }
  unfold here, in_slot. now rewrite E.
Qed.
Lemma enqueue_here k c p t k' : enqueue_chord_event k c p t = Ok k' -> here k -> here k'.
Proof.
  unfold enqueue_chord_event. intros H Hk. destruct (_ =? 0)%N; [apply Ok_inj in H; now subst|].
  destruct (Nat.ltb _ _); [|discriminate]. apply Ok_inj in H. subst k'. exact Hk.
Qed.
Lemma chord_plan_slot k code pressed time r : chord_plan k code pressed time = Ok r -> here k ->
  ~ (code = x /\ pressed = false) -> slot_fine r.
Proof.
  unfold chord_plan. intros H Hk Hn.
  destruct (if negb (code =? 0)%N && negb pressed then _ else _) as [j|] eqn:Ei.
  - destruct (negb (code =? 0)%N && negb pressed) eqn:Ec; [|discriminate]. apply andb_true_iff in Ec as [_ Ec].
    apply negb_true_iff in Ec. apply chord_of_key_at in Ei as [_ [[a [Ea [Eb Ed]]] _]]. rewrite Nat.sub_0_r in Ea.
    unfold chord_up in H. apply Ok_inj in H. subst r.
    destruct (Nat.eq_dec j s) as [->|Hj].
    + destruct Hk as [ks [H1 H2]]. rewrite Ea in H1. injection H1 as ->.
      assert (L : s < length (k_achords k)) by (apply nth_error_Some; congruence).
      rewrite (nth_error_nth _ _ zero_ac Ea). cbn [ac_chord ch_keys ch_d ac_layer].
      set (ks' := map _ ks).
      assert (Hx : In x ks').
      { apply in_map_iff. exists x. split; [|exact H2]. destruct (N.eqb_spec x code) as [E|_]; [|reflexivity].
        elim Hn. auto. }
      assert (Er : existsb (fun y => negb (y =? 0)%N) ks' = true).
      { apply existsb_exists. exists x. split; [exact Hx|]. apply negb_true_iff. apply N.eqb_neq, x_some. }
      rewrite Er. split; [|discriminate]. exists ks'. split; [|exact Hx]. cbn [fst k_achords set_k_achords].
      now rewrite nth_error_upd_same.
    + split; cbn [fst snd].
      * now apply here_upd.
      * destruct (existsb _ _); cbn [chord_target]; [discriminate|]. now intros j' [= <-].
  - destruct (h_state (k_chord k)).
    + apply Ok_inj in H. subst r. split; [exact Hk|discriminate].
    + bstep H k1 E1. apply enqueue_here in E1; [|exact Hk].
      destruct (check_chord_match k1) as [c k2] eqn:Ec. apply check_here in Ec; [|exact E1].
      destruct c; [apply Ok_inj in H; subst r; split; [exact Ec|discriminate]|..]; eapply matched_slot; eauto.
    + destruct (code =? 0)%N.
      * destruct (_ <=? _)%Z; [|apply Ok_inj in H; subst r; split; [exact Hk|discriminate]].
        destruct (h_match (k_chord k)); [|eapply abort_slot; eauto].
        destruct (0 <? _)%Z; [|eapply resolve_slot; eauto]. bstep H k1 E1. apply Ok_inj in H. subst r.
        apply sched_here in E1; [|exact Hk]. split; [exact E1|discriminate].
      * bstep H k1 E1. apply enqueue_here in E1; [|exact Hk]. destruct (negb pressed); [eapply abort_slot; eauto|].
        destruct (check_chord_match k1) as [c k2] eqn:Ec. apply check_here in Ec; [|exact E1].
        destruct c; [eapply abort_slot; eauto|..]; eapply matched_slot; eauto.
    + destruct (code =? 0)%N.
      * destruct (_ <=? _)%Z; [|apply Ok_inj in H; subst r; split; [exact Hk|discriminate]]. eapply resolve_slot; eauto.
      * bstep H k1 E1. apply enqueue_here in E1; [|exact Hk].
        destruct (negb pressed); [|apply Ok_inj in H; subst r; split; [exact E1|discriminate]].
        destruct (h_match (k_chord k1)); [|discriminate]. bstep H ch Ed.
        destruct (in_keys _ _); [eapply abort_slot; eauto|]. apply Ok_inj in H. subst r. split; [exact E1|discriminate].
Qed.

(* ---- kept while x is down ------------------------------------------------------------- *)
Variable sw : Prop.
Variable l : nat.
Hypothesis Hl : ~ sw \/ l = 0.
Definition chord_kept (k : kbd) : Prop := kept sw (slot_code s) d i l k /\ here k.
Let Q := not_freeing s x.
Lemma kept_cc k k' : kept sw (slot_code s) d i l k -> chord_changed k k' -> kept sw (slot_code s) d i l k'.
Proof.
  intros [[U [L A]] [R Hp]] C. pose proof C as [q [acs [ts [-> [La _]]]]].
  split; [split; [exact U|split; [cbn; lia|]]|split; [exact R|exact Hp]].
  destruct A as [A|A]; auto. right. eapply chord_alld; eauto using nonswap_closed.
Qed.
Lemma slot_kept_events fuel k evs k' t : Forall Q evs -> kbd_process_events fuel k evs = Ok (k', t) ->
  IQ chord_kept Q k -> IQ chord_kept Q k'.
Proof.
  intros He H K. revert k evs k' t K He H.
  assert (qt : forall t, Q (mkKev 0 false t)).
  { intros t. split; cbn [ev_code ev_pressed]; [intros E; symmetry in E; now apply code_some in E|].
    intros [E _]. now apply x_some. }
  cut (forall k evs k' t, IQ chord_kept Q k -> Forall Q evs -> kbd_process_events fuel k evs = Ok (k', t) -> IQ chord_kept Q k').
  { intros C k evs k' t. apply C. }
  intros k evs k' t. apply liftok_events; clear k evs k' t.
  - intros e t _ _. apply qt.
  - intros k code pressed time r [[K S] [Q1 Q2]] Hq E.
    destruct (chord_plan_slot _ _ _ _ _ E S (proj2 Hq)) as [S1 S2]. destruct r as [k1 pl]. cbn [fst snd] in *.
    pose proof (chord_plan_live _ _ _ _ _ _ E) as A2. apply chord_plan_shape in E as [A1 [_ [_ A4]]].
    rewrite Forall_forall in Q1.
    assert (K1 : IQ chord_kept Q k1).
    { split; [split; [eapply kept_cc; eauto|exact S1]|]. split.
      - apply Forall_forall. intros e He. destruct (A2 e (or_introl He)) as [G| ->]; auto.
      - destruct A1 as [q [acs [ts [-> _]]]]. exact Q2. }
    assert (Qc : forall j p t, chord_target pl = Some j -> Q (mkKev (chord_code j) p t)).
    { intros j p t Hj. pose proof (A4 _ Hj) as Hj1. apply S2 in Hj. assert (L : length (k_achords k) <= 3) by apply K.
      split; cbn [ev_code ev_pressed]; [unfold chord_code, slot_code; lia|]. intros [E1 _].
      destruct x_phys as [_ Hp]. apply Hp. rewrite <- E1. unfold chord_code, K_CHORD_1, K_CHORD_MAX. lia. }
    unfold plan_fine. destruct pl as [| |j|press rest].
    + exact K1.
    + exact K1.
    + split; [exact K1|]. now apply Qc.
    + split; [exact K1|]. split.
      * intros j ->. now apply Qc.
      * intros evs ->. apply Forall_forall. intros e He. destruct (A2 e (or_intror He)) as [G| ->]; auto.
  - intros k [[K S] [Q1 Q2]]. split; [split; [eapply kept_cc; [exact K|apply cc_chord]|exact S]|split; [constructor|exact Q2]].
  - intros k code pressed time r K Hq E. destruct r as [k1 pl].
    destruct (IQ_pending chord_kept Q) with (k := k) (code := code) (pressed := pressed) (time := time) (k' := k1) (pl := pl)
      as [R1 R2]; auto.
    + intros k0 q a t0 k2 [K0 S0] Hp Ha Ho Hd. split.
      * unfold decide in Hd. cbn [p_code p_dl set_p_queue] in Hd.
        assert (Hpc : p_code (k_pend k0) <> slot_code s) by apply K0.
        assert (Hn : sw \/ nonswap a).
        { destruct K0 as [[_ [_ [K0|K0]]] _]; auto. right.
          destruct K0 as [_ [_ [_ [A1 A2]]]]. destruct Ha as [->| ->]; auto. }
        eapply (pd_kept sw (slot_code s) d i l (code_some s) Hl); [exact Hpc|exact Hn|exact Hd|].
        set (k3 := set_k_pend (set_p_code 0%N (set_p_queue [] (set_p_queue q (k_pend k0)))) k0).
        assert (K3 : kept sw (slot_code s) d i l k3).
        { destruct K0 as [[U [L A]] [R Hq0]]. split; [split; [exact U|split; [exact L|exact A]]|split; [exact R|]].
          intros Ex. apply (code_some s). symmetry. exact Ex. }
        destruct (cache_set k3 _ _) as [k4|] eqn:E3; [|exact K3].
        eapply (cache_set_kept2 sw (slot_code s) d i l (code_some s)); eauto. now intros e [= <-].
      * unfold decide in Hd. apply do_desc_frame in Hd as [_ [_ [_ [F _]]]]. unfold here, in_slot. rewrite F.
        destruct (cache_set _ _ _) as [k4|] eqn:E3; [|exact S0].
        apply cache_set_frame in E3 as [_ [_ [_ [E3 _]]]]. rewrite E3. exact S0.
    + destruct pl as [| |evs]; [exact R1|exact R1|]. split; [exact R1|]. now apply R2.
  - intros k code pressed time k' [[K S] [Q1 Q2]] Hq _ Hr.
    pose proof (rest_frame _ _ _ _ _ Hr) as [_ [_ [F1 [F4 [F2 _]]]]].
    split; [split|split; [unfold live in *; now rewrite F1|now rewrite F2]].
    + unfold rest_step in Hr. bstep Hr k3 E3. bstep Hr k4 E4.
      eapply (handle_key_kept sw (slot_code s) d i l (code_some s) Hl); [exact (proj1 Hq)|exact Hr|].
      apply (same_cache_kept sw (slot_code s) d i l k3); [|eapply run_macro_frame; eauto|eapply run_macro_cp; eauto|eapply run_macro_cp; eauto].
      apply (same_cache_kept sw (slot_code s) d i l k); [exact K|eapply expire_frame; eauto|eapply expire_cp; eauto|eapply expire_cp; eauto].
    + unfold here, in_slot. rewrite F4. exact S.
  - intros k e [[K S] [Q1 Q2]] Hq. split; [split; [|exact S]|split; [exact Q1|exact Q2]].
    eapply kept_cc; [exact K|]. pose proof (cc_times k (k_chord k) (filter (fun t => (ev_time e <? t)%Z) (k_timeouts k))) as C.
    now rewrite set_same_chord in C.
Qed.
Lemma during_kept (G : config -> Prop) k k' : (sw \/ forall c, G c -> swap_free c) -> during G s x k k' ->
  IQ chord_kept Q k -> IQ chord_kept Q k'.
Proof.
  intros HG M. induction M as [k|k fuel evs k1 t k2 He H M IH|k exp k1 ok k2 H Hg M IH]; intros K; auto.
  - apply IH. eapply slot_kept_events; eauto.
  - apply kbd_eval_shape in H as [c ->]. apply IH.
    destruct K as [[[[U [L A]] [R Hp]] S] K]. split; [split; [|exact S]|exact K].
    split; [split; [exact U|split; [exact L|]]|split; [exact R|exact Hp]].
    destruct A as [A|A]; auto. destruct HG as [HG|HG]; auto. right.
    destruct A as [_ A]. split; [|exact A]. apply swap_free_all. now apply HG.
Qed.
End Slot.

Lemma filter_idem {A} (f : A -> bool) l : filter f (filter f l) = filter f l.
Proof. induction l as [|a l IH]; cbn [filter]; auto. destruct (f a) eqn:E; cbn [filter]; rewrite ?E; congruence. Qed.

(* ---- the chord's keys are released --------------------------------------------------------- *)
Lemma chord_up_spec k s x a : nth_error (k_achords k) s = Some a ->
  exists ks, fst (chord_up k x s) = set_k_achords (upd s (mkAc (snd (chord_up k x s)) (mkChord ks (ch_d (ac_chord a))) (ac_layer a)) (k_achords k)) k
    /\ (forall z, z <> 0%N -> In z ks <-> In z (ch_keys (ac_chord a)) /\ z <> x)
    /\ (snd (chord_up k x s) = true <-> exists z, z <> 0%N /\ In z ks).
Proof.
  intros H. unfold chord_up. rewrite (nth_error_nth _ _ zero_ac H). cbn [fst snd].
  set (ks := map _ _). exists ks. split; [reflexivity|]. split.
  - intros z Hz. unfold ks. rewrite in_map_iff. split.
    + intros [y0 [E Hy]]. destruct (N.eqb_spec y0 x) as [Ey|Hn]; [congruence|]. subst z. auto.
    + intros [H1 H2]. exists z. split; [|exact H1]. now destruct (N.eqb_spec z x).
  - rewrite existsb_exists. split.
    + intros [z [Hz Hn]]. exists z. split; [|exact Hz]. apply negb_true_iff in Hn. now apply N.eqb_neq in Hn.
    + intros [z [Hn Hz]]. exists z. split; [exact Hz|]. apply negb_true_iff. now apply N.eqb_neq.
Qed.
Lemma release_plan k s x t : x <> 0%N -> first_slot k s x ->
  (exists a, nth_error (k_achords k) s = Some a /\ ac_active a = true /\ In x (ch_keys (ac_chord a))) ->
  chord_plan k x false t
    = Ok (fst (chord_up k x s), if snd (chord_up k x s) then PlanTaken else PlanRelease s).
Proof.
  intros Hx Hf Ha. unfold chord_plan. apply N.eqb_neq in Hx. rewrite Hx. cbn [negb andb].
  rewrite (chord_of_key_first k s x Hf Ha). destruct (chord_up k x s). reflexivity.
Qed.

(* others of the chord's keys are still down *)
Lemma part_released f k s x t d i k' d' : physical x -> in_slot k s x d i -> first_slot k s x -> ~ last_in_slot k s x ->
  process_event (S f) k x false t = Ok (k', d') ->
  exists acs, k' = set_k_timeouts (filter (fun y => (t <? y)%Z) (k_timeouts k)) (set_k_achords acs k)
    /\ (forall j, j <> s -> nth_error acs j = nth_error (k_achords k) j)
    /\ forall z, z <> 0%N -> (in_slot k' s z d i <-> in_slot k s z d i /\ z <> x).
Proof.
  intros Hx [ks [H1 H2]] Hf Hl H. cbn [process_event] in H. rewrite process_event_plan in H.
  rewrite (release_plan k s x t) in H; [|apply Hx|exact Hf|eexists; split; [exact H1|auto]].
  destruct (chord_up_spec k s x _ H1) as [ks' [E1 [E2 E3]]]. cbn [ac_chord ch_keys ch_d ac_layer] in *.
  assert (L : s < length (k_achords k)) by (apply nth_error_Some; congruence).
  destruct (snd (chord_up k x s)) eqn:Er.
  - cbn [bind run_plan] in H. apply Ok_inj in H. unfold calculate_main_loop_timeout in H.
    apply pair_equal_spec in H as [<- _]. rewrite E1. eexists. split; [reflexivity|]. split.
    + intros j Hj. apply nth_error_upd_other. auto.
    + intros z Hz. unfold in_slot. cbn [k_achords set_k_timeouts set_k_achords]. rewrite nth_error_upd_same by exact L.
      rewrite H1. split.
      * intros [ks2 [F1 F2]]. injection F1 as <-. apply E2 in F2 as [F2 F3]; auto. split; [|exact F3]. exists ks. auto.
      * intros [[ks2 [F1 F2]] F3]. injection F1 as <-. exists ks'. split; [reflexivity|]. apply E2; auto.
  - exfalso. apply Hl. eexists. split; [exact H1|]. split; [reflexivity|]. split; [exact H2|]. cbn [ac_chord ch_keys].
    intros y Hy. destruct (N.eq_dec y x) as [->|Hn]; [now left|]. destruct (N.eq_dec y 0%N) as [->|Hn0]; [now right|].
    exfalso. assert (X : false = true); [|discriminate]. apply E3. exists y. split; [exact Hn0|]. apply E2; auto.
Qed.
(* the last key: the action is released *)
Lemma last_released f k s x t d i l k' d' : physical x -> in_slot k s x d i -> first_slot k s x -> last_in_slot k s x ->
  uniq (k_cache k) -> remembered k (slot_code s) d i l -> decided k (slot_code s) ->
  h_state (k_chord k) = CsInactive -> unchorded k (slot_code s) -> nothing_due k t ->
  process_event (S f) k x false t = Ok (k', d') ->
  exists acs q ca k1, (forall j, j <> s -> nth_error acs j = nth_error (k_achords k) j)
    /\ (exists a, nth_error acs s = Some a /\ ac_active a = false) /\ h_state q = CsInactive
    /\ do_desc (set_k_cache ca (set_k_chord q (set_k_achords acs k))) (slot_code s) d i false t = Ok k1
    /\ k' = set_k_timeouts (filter (fun y => (t <? y)%Z) (k_timeouts k1)) k1.
Proof.
  intros Hx [ks [H1 H2]] Hf [a [L1 [L2 [L3 L4]]]] U R D Hs Hu Hd H. cbn [process_event] in H. rewrite process_event_plan in H.
  rewrite H1 in L1. injection L1 as <-. cbn [ac_chord ch_keys] in *.
  rewrite (release_plan k s x t) in H; [|apply Hx|exact Hf|eexists; split; [exact H1|auto]].
  destruct (chord_up_spec k s x _ H1) as [ks' [E1 [E2 E3]]]. cbn [ac_chord ch_keys ch_d ac_layer] in *.
  assert (L : s < length (k_achords k)) by (apply nth_error_Some; congruence).
  assert (Er : snd (chord_up k x s) = false).
  { destruct (snd (chord_up k x s)); [|reflexivity]. destruct E3 as [E3 _]. destruct (E3 eq_refl) as [z [Z1 Z2]].
    apply E2 in Z2 as [Z2 Z3]; auto. destruct (L4 z Z2); contradiction. }
  rewrite Er in *. rewrite E1 in H. cbn [bind run_plan] in H.
  set (acs := upd s _ _) in *. bstep H r Ep. destruct r as [k2 b2]. bstep Ep r2 E9. destruct r2 as [k3 d3].
  apply Ok_inj, pair_equal_spec in Ep as [<- <-]. apply Ok_inj in H.
  unfold calculate_main_loop_timeout in H. apply pair_equal_spec in H as [H _].
  assert (Hu1 : unchorded (set_k_achords acs k) (slot_code s)).
  { destruct Hu as [Hu1 Hu2]. split; [exact Hu1|]. intros ac Hac Hact. cbn [k_achords set_k_achords] in Hac.
    unfold acs in Hac. apply In_upd in Hac as [->|Hac]; [discriminate Hact|]. now apply Hu2. }
  destruct (release_decided f (set_k_achords acs k) (slot_code s) t d i l k3 d3 U (code_some s) R D Hs Hu1 Hd E9)
    as [q [ca [k1 [Q1 [Q2 Q3]]]]].
  exists acs, q, ca, k1. split; [|split; [|split; [|split; [exact Q2|]]]].
  - intros j Hj. unfold acs. apply nth_error_upd_other. auto.
  - eexists. unfold acs. split; [apply nth_error_upd_same; exact L|]. reflexivity.
  - rewrite Q1. exact Hs.
  - rewrite <- H, Q3. cbn [k_timeouts set_k_timeouts].
    rewrite filter_idem. destruct k1; reflexivity.
Qed.

(* ---- what firing leaves behind ------------------------------------------------------------------ *)
Lemma outcome_nil k kb d : outcome k [] (Ok (kb, d)) -> kb = k.
Proof. intros [_ [f H]]. specialize (H f (le_n _)). destruct f; cbn in H; apply Ok_inj, pair_equal_spec in H as [<- _]; reflexivity. Qed.
Lemma fires_leaves k evs s ch i t now k3 : idle k -> uniq (k_cache k) -> unheld k (slot_code s) -> (p_code (k_pend k) = 0%N -> p_queue (k_pend k) = []) ->
  free_slot k s -> fires k evs s ch i t [] now k3 -> fixed_at_press (ch_d ch) ->
  decided k3 (slot_code s) /\ (forall x, In x (ch_keys ch) -> in_slot k3 s x (ch_d ch) i)
  /\ exists l, remembered k3 (slot_code s) (ch_d ch) i l /\ (holds_no_layer (ch_d ch) -> l = 0).
Proof.
  intros [Hp Hs] Hun Hh Hq Hfs [kx [k1 [kb [d [[j [q [ts [J1 [J2 [J3 ->]]]]]] [E [O [q2 [R1 ->]]]]]]]]] Hf.
  apply outcome_nil in O. subst kb.
  set (kx := set_k_cache _ _) in *.
  assert (Hin : In (mkCe (slot_code s) (ch_d ch) i 0) (k_cache kx)).
  { subst kx. cbn [k_cache set_k_cache]. rewrite <- (nth_upd_same j (mkCe (slot_code s) (ch_d ch) i 0) zero_ce (k_cache k) J1) at 1.
    apply nth_In. now rewrite upd_length. }
  assert (U : uniq (k_cache kx)).
  { subst kx. cbn [k_cache set_k_cache]. apply uniq_upd; [exact Hun|exact J1|]. right. right. exact Hh. }
  pose proof (pd_fixed_cp _ _ _ _ _ _ _ Hf E) as [C1 C2].
  pose proof (do_desc_frame _ _ _ _ _ _ _ E) as [F1 [F2 [F3 [F4 [F5 F6]]]]].
  split; [|split].
  - split; [|split].
    + cbn [k_pend set_k_timeouts set_k_chord set_k_cfg no_chords]. rewrite C1. subst kx. cbn [k_pend set_k_cache set_k_achords set_k_chord set_k_timeouts].
      rewrite Hp. intros X. symmetry in X. now apply code_some in X.
    + cbn [k_pend set_k_timeouts set_k_chord set_k_cfg no_chords]. rewrite F5. subst kx. cbn [k_pend set_k_cache set_k_achords set_k_chord set_k_timeouts].
      rewrite (Hq Hp). intros e [].
    + intros [Hx|Hx]; cbn [k_chord set_k_timeouts set_k_chord] in Hx; congruence.
  - intros x Hx. exists (ch_keys ch). split; [|exact Hx].
    cbn [k_achords set_k_timeouts set_k_chord set_k_cfg no_chords]. rewrite F4. subst kx.
    cbn [k_achords set_k_cache set_k_achords]. destruct Hfs as [[a [Ha _]] _].
    rewrite nth_error_upd_same by (apply nth_error_Some; congruence). now destruct ch.
  - unfold remembered. cbn [k_cache set_k_timeouts set_k_chord set_k_cfg no_chords].
    assert (G1 : exists l, In (mkCe (slot_code s) (ch_d ch) i l) (k_cache k1)).
    { assert (V : evols True (slot_code s) kx k1) by (eapply (pd_evols True); eauto).
      unfold evols in V. clear -Hin V C2. revert C2.
      induction V as [|e e' r r' [E1 [E2 E3]] V IH]; intros C2; [destruct Hin|].
      cbn [map] in C2. injection C2 as C2 C3. destruct Hin as [->|Hin].
      - exists (ce_layer e'). left. destruct e'; cbn in *; congruence.
      - destruct (IH Hin C3) as [l Hl]. exists l. now right. }
    destruct G1 as [l Hl]. destruct (holds_no_layer_dec (ch_d ch)) as [Hn|Hn].
    + exists 0. split; auto. rewrite (pd_plain_cache _ _ _ _ _ _ _ Hf Hn E). exact Hin.
    + exists l. split; [exact Hl|]. intros; contradiction.
Qed.
