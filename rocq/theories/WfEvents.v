(* Well-formedness through the event loop: chords, pending keys, replays. *)
From Verif Require Import Base Lib Keys Types MacroExec Kbd Steps SpecWf ModsProofs Engine Wf.

(* ---- chords ----------------------------------------------------------------------- *)
Lemma chord_presses_le keys : forall evs n m, chord_presses keys evs n = Some m -> m <= n + length evs.
Proof.
  induction evs as [|e evs IH]; cbn [chord_presses length]; intros n m H.
  - injection H as <-. lia.
  - destruct (ev_pressed e).
    + destruct (in_keys _ _); [|discriminate]. apply IH in H. lia.
    + apply IH in H. lia.
Qed.
Lemma chord_full_le ch evs : chord_event_match ch evs = Full -> length (ch_keys ch) <= length evs.
Proof.
  unfold chord_event_match. destruct (chord_presses _ _ _) as [[|n]|] eqn:E; try discriminate.
  destruct (Nat.eqb_spec (S n) (length (ch_keys ch))); [|discriminate].
  intros _. apply chord_presses_le in E. lia.
Qed.

Definition best_ok (k : kbd) (a : cmacc) : Prop :=
  let '(best, _, _) := a in forall m, best = Some m -> match_ok (k_cfg k) (h_queue (k_chord k)) m.
Lemma check_layer1_ok k a li : li < nlayers k -> best_ok k a -> best_ok k (check_layer1 k a li).
Proof.
  intros Hli Ha. unfold check_layer1. destruct (is_active k li); auto.
  apply fold_left_inv; auto.
  intros [[best mx] part] [ci ch] Hb Hin. unfold check_chord1.
  destruct (chord_event_match ch _) eqn:E; auto.
  destruct (_ <=? _)%Z; auto.
  intros m [= <-]. 
  assert (Hci : ci < length (ly_chords (layer_at k li))).
  { apply in_combine_l in Hin. apply in_seq in Hin. lia. }
  assert (Hch : nth ci (ly_chords (layer_at k li)) zero_chord = ch).
  { apply In_nth with (d := (0, zero_chord)) in Hin as [j [Hj Hn]].
    rewrite combine_length, seq_length, Nat.min_id in Hj.
    rewrite combine_nth in Hn by now rewrite seq_length.
    rewrite seq_nth in Hn by auto. injection Hn as Hn1 Hn2. cbn in Hn1. now subst. }
  split; [exact Hli|]. split; [exact Hci|]. cbn [fst snd].
  unfold layer_at in Hch. rewrite Hch. now apply chord_full_le.
Qed.

Lemma check_chord_match_ok k r k' : check_chord_match k = (r, k') ->
  (r = CC0 -> k' = k) /\
  (k' = k \/
   exists m, match_ok (k_cfg k) (h_queue (k_chord k)) m
     /\ k' = set_k_chord (set_h_match (Some m) (set_h_mlayer (fst m) (k_chord k))) k) /\
  (r = CC2 -> h_match (k_chord k') <> None).
Proof.
  unfold check_chord_match.
  assert (H : best_ok k (fold_left (check_layer1 k) (seq 0 (nlayers k)) (None, (-1)%Z, false))).
  { apply fold_left_inv; [|discriminate]. intros a li Ha Hli. apply in_seq in Hli.
    apply check_layer1_ok; auto. lia. }
  destruct (fold_left _ _ _) as [[[[li ci]|] mx] part]; intros [= <- <-].
  - split; [destruct part; discriminate|]. split; [|intros _; discriminate].
    right. exists (li, ci). split; [now apply H|reflexivity].
  - repeat split; auto. destruct part; discriminate.
Qed.

Lemma chord_stays k h : wfk k -> chord_ok (k_cfg k) h -> h_mlayer h < length (c_layers (k_cfg k)) ->
  stays k (set_k_chord h k).
Proof.
  intros [W1 W2 W3 W4 W5 W6 W7 W7' W8 W9] H1 H2. split; [|now apply wsteps_int].
  constructor; cbn; auto.
Qed.

Definition matches_ok (k : kbd) : Prop :=
  forall m, h_match (k_chord k) = Some m -> match_ok (k_cfg k) (h_queue (k_chord k)) m.

Lemma match_ok_app c q q' m : match_ok c q m -> match_ok c (q ++ q') m.
Proof. intros [H1 [H2 H3]]. repeat split; auto. rewrite app_length. lia. Qed.

Lemma wf_chords_lt c li ci : wf_config c -> li < length (c_layers c) ->
  ci < length (ly_chords (nth li (c_layers c) zero_layer)) ->
  sdesc c (ch_d (nth ci (ly_chords (nth li (c_layers c) zero_layer)) zero_chord)) /\ ci < 64.
Proof.
  intros W Hl Hc.
  assert (HL : wf_layer c (nth li (c_layers c) zero_layer)).
  { apply (wf_layers _ W). now apply nth_In. }
  split; [|pose proof (wl_chords _ _ HL); lia].
  destruct (wl_chord _ _ HL (nth ci (ly_chords (nth li (c_layers c) zero_layer)) zero_chord)) as [_ H].
  { now apply nth_In. }
  eapply sdesc_weak; [..|exact H].
  - apply (wf_descs_max _ W).
  - apply (wf_macros_max _ W).
  - pose proof (wf_cmds_max _ W). lia.
Qed.

Lemma deref_match_ok k p : wfk k -> match_ok (k_cfg k) (h_queue (k_chord k)) p ->
  exists ch, deref_match k p = Ok ch /\ sdesc (k_cfg k) (ch_d ch)
             /\ length (ch_keys ch) <= length (h_queue (k_chord k)).
Proof.
  destruct p as [li ci]. intros W [H1 [H2 H3]]. cbn [fst snd] in *. unfold deref_match.
  pose proof (wf_layers_max _ (wk_cfg _ W)).
  destruct (wf_chords_lt _ _ _ (wk_cfg _ W) H1 H2) as [Hd H64].
  unfold MAX_LAYERS.
  destruct (Nat.ltb_spec li 32); [|lia]. destruct (Nat.ltb_spec ci 64); [|lia]. cbn [andb].
  eexists; split; [reflexivity|]. auto.
Qed.

(* a plan that can be carried out *)
Definition plan_wf (k : kbd) (r : kbd * cplan) : Prop :=
  stays k (fst r) /\
  match snd r with PlanReplay _ rest => rest <> None | _ => True end.

Lemma resolve_plan_stays k : wfk k -> matches_ok k -> sf (plan_wf k) (resolve_plan k).
Proof.
  intros W Hm. unfold resolve_plan.
  set (k0 := set_cstate CsResolving k).
  assert (H0 : stays k k0) by (apply chord_stays; auto; [exact Logic.I|apply W]).
  cbn [k0 set_cstate k_chord set_k_chord set_h_state h_match].
  destruct (h_match (k_chord k)) as [p|] eqn:Ep.
  - destruct (deref_match_ok k0 p (proj1 H0)) as [ch [E [Hd Hl]]].
    { apply Hm. exact Ep. }
    fold k0. rewrite E. cbn [bind].
    destruct (free_chord (k_achords k0) 0) as [i|]; [|exact Logic.I].
    cbn [safe plan_wf fst snd]. split.
    + eapply stays_trans; [exact H0|]. destruct H0 as [[W1 W2 W3 W4 W5 W6 W7 W7' W8 W9] _].
      split; [|now apply wsteps_int].
      constructor; cbn [fst k_achords set_k_achords]; try assumption.
      * rewrite upd_length. exact W4.
      * apply Forall_upd; [exact W5|]. split; [exact Hd|exact W7'].
    + cbn [snd]. cbn [k_chord set_k_chord set_h_state h_queue k0 set_cstate]. destruct (Nat.ltb_spec (length (h_queue (k_chord k))) (length (ch_keys ch))); [|discriminate].
      change (h_queue (k_chord k0)) with (h_queue (k_chord k)) in Hl. lia.
  - split; [exact H0|discriminate].
Qed.

Lemma abort_plan_stays k : wfk k -> h_state (k_chord k) <> CsHold -> sf (plan_wf k) (abort_plan k).
Proof.
  intros W Hs. unfold abort_plan.
  assert (H1 : stays k (set_k_chord (set_h_match None (k_chord k)) k)).
  { apply chord_stays; auto; [|apply W].
    pose proof (wk_chord _ W) as Hc. unfold chord_ok in *. cbn.
    destruct (h_state (k_chord k)); auto; [|congruence]. split; [apply Hc|]. discriminate. }
  eapply safe_weak; [apply resolve_plan_stays; [apply H1|]|].
  - intros m. discriminate.
  - intros r [G1 G2]. split; auto. eapply stays_trans; eauto.
Qed.

(* abort also from the hold state: the match is dropped and the state becomes resolving at once *)
Lemma abort_plan_stays' k : wfk k -> sf (plan_wf k) (abort_plan k).
Proof.
  intros W. unfold abort_plan, resolve_plan. cbn [safe plan_wf fst snd]. split; [|discriminate].
  eapply stays_trans with (k).
  - now apply stays_refl.
  - change (set_cstate CsResolving (set_k_chord (set_h_match None (k_chord k)) k))
      with (set_k_chord (set_h_state CsResolving (set_h_match None (k_chord k))) k).
    apply chord_stays; auto; [exact Logic.I|apply W].
Qed.

Lemma enqueue_ok k code pressed time :
  sf (fun k' => k' = k \/ k' = set_k_chord
        (set_h_queue (h_queue (k_chord k) ++ [mkKev code pressed time]) (k_chord k)) k)
     (enqueue_chord_event k code pressed time).
Proof.
  unfold enqueue_chord_event. destruct (_ =? 0)%N; [left; reflexivity|].
  destruct (Nat.ltb _ _); [right; reflexivity|exact Logic.I].
Qed.

Lemma matched_plan_stays k r time : wfk k -> matches_ok k -> r <> CC0 ->
  (r = CC2 -> h_match (k_chord k) <> None) -> sf (plan_wf k) (matched_plan k r time).
Proof.
  intros W Hm Hr H2. unfold matched_plan. cbv zeta.
  set (k1 := set_k_chord (set_h_last time (k_chord k)) k).
  assert (H1 : stays k k1) by (apply chord_stays; auto; apply W).
  assert (Hd : sf (plan_wf k) (k2 <- schedule_timeout (set_cstate CsDisambiguation k1)
              (time + c_chord_interkey (k_cfg k))%Z ;; Ok (k2, PlanTaken))).
  { assert (Hs : stays k (set_cstate CsDisambiguation k1)).
    { change (set_cstate CsDisambiguation k1)
        with (set_k_chord (set_h_state CsDisambiguation (set_h_last time (k_chord k))) k).
      apply chord_stays; auto; [|apply W]. split; [apply W|]. exact Hm. }
    eapply safe_bind; [apply schedule_stays, Hs|]. intros k2 Hk2. split; [|exact Logic.I].
    eapply stays_trans; eauto. }
  destruct r; auto; try congruence.
  destruct (_ =? 0)%Z.
  - eapply safe_weak; [apply resolve_plan_stays; [apply H1|exact Hm]|].
    intros r [G1 G2]. split; auto. eapply stays_trans; eauto.
  - assert (Hs : stays k (set_cstate CsHold k1)).
    { change (set_cstate CsHold k1)
        with (set_k_chord (set_h_state CsHold (set_h_last time (k_chord k))) k).
      apply chord_stays; auto; [|apply W]. split; [apply W|].
      destruct (h_match (k_chord k)) as [m|] eqn:E; [|exfalso; now apply H2].
      exists m. split; [exact E|]. apply Hm. exact E. }
    eapply safe_bind; [apply schedule_stays, Hs|]. intros k2 Hk2. split; [|exact Logic.I].
    eapply stays_trans; eauto.
Qed.

Lemma chord_of_key_lt : forall acs code i j, chord_of_key acs code i = Some j -> i <= j < i + length acs.
Proof.
  induction acs as [|a r IH]; cbn [chord_of_key length]; intros code i j H; [discriminate|].
  destruct (_ && _); [injection H as <-; lia|]. apply IH in H. lia.
Qed.

Lemma plan_wf_trans k k1 r : stays k k1 -> sf (plan_wf k1) r -> sf (plan_wf k) r.
Proof.
  intros H1 H2. eapply safe_weak; [exact H2|]. intros [k2 pl] [G1 G2]. split; auto.
  eapply stays_trans; eauto.
Qed.

Lemma check_stays k r k' : wfk k -> matches_ok k -> h_state (k_chord k) <> CsHold ->
  check_chord_match k = (r, k') ->
  stays k k' /\ matches_ok k' /\ (r = CC2 -> h_match (k_chord k') <> None)
  /\ h_state (k_chord k') = h_state (k_chord k).
Proof.
  intros W Hm Hs E. apply check_chord_match_ok in E as [E1 [E2 E3]].
  destruct E2 as [->|[m [Hok ->]]].
  - split; [now apply stays_refl|]. auto.
  - split; [|split; [|split]]; auto.
    + apply chord_stays; auto.
      * unfold chord_ok. cbn. destruct (h_state (k_chord k)); auto; [|congruence].
        split; [apply Hok|]. intros m' [= <-]. exact Hok.
      * cbn. apply Hok.
    + intros m' [= <-]. exact Hok.
Qed.

Lemma chord_plan_stays k code pressed time : wfk k -> sf (plan_wf k) (chord_plan k code pressed time).
Proof.
  intros W. unfold chord_plan. cbv zeta.
  destruct (if negb (code =? 0)%N && negb pressed then chord_of_key (k_achords k) code 0 else None) as [i|] eqn:E.
  - destruct (_ && _); [|discriminate]. apply chord_of_key_lt in E.
    unfold chord_up. cbn [safe]. split; [|cbn [snd]; destruct (existsb _ _); exact Logic.I].
    cbn [fst]. destruct W as [W1 W2 W3 W4 W5 W6 W7 W7' W8 W9]. split; [|now apply wsteps_int].
    constructor; auto; cbn [k_achords set_k_achords].
    + rewrite upd_length. exact W4.
    + apply Forall_upd; [exact W5|]. cbn [ac_chord ac_layer ch_d].
      rewrite Forall_forall in W5. apply W5. apply nth_In. lia.
  - clear E. pose proof (wk_chord _ W) as Hc. unfold chord_ok in Hc.
    destruct (h_state (k_chord k)) eqn:Es.
    + split; [now apply stays_refl|exact Logic.I].
    + (* inactive *)
      set (k0 := set_k_chord (set_h_match None (set_h_queue [] (k_chord k))) k).
      assert (H0 : stays k k0).
      { apply chord_stays; auto; [|apply W]. unfold chord_ok. cbn. now rewrite Es. }
      eapply safe_bind; [apply enqueue_ok|]. intros k1 Hk1.
      assert (H1 : stays k0 k1 /\ h_state (k_chord k1) = CsInactive /\ matches_ok k1).
      { destruct Hk1 as [->| ->].
        - split; [apply stays_refl, H0|]. split; [exact Es|]. discriminate.
        - split; [|split; [exact Es|discriminate]].
          apply chord_stays; try apply H0. unfold chord_ok. cbn. now rewrite Es. }
      destruct H1 as [H1 [Hs1 Hm1]].
      destruct (check_chord_match k1) as [r k2] eqn:Er.
      destruct (check_stays k1 r k2 (proj1 H1) Hm1) as [G1 [G2 [G3 G4]]]; auto; [congruence|].
      apply (plan_wf_trans k k2).
      { eapply stays_trans; [exact H0|]. eapply stays_trans; eauto. }
      destruct r; try (apply matched_plan_stays; auto; try apply G1; discriminate).
      split; [apply stays_refl, G1|exact Logic.I].
    + (* disambiguation *)
      destruct Hc as [Hml Hm].
      destruct (code =? 0)%N.
      * destruct (_ <=? _)%Z; [|split; [now apply stays_refl|exact Logic.I]].
        destruct (h_match (k_chord k)) as [m|] eqn:Em.
        -- destruct (0 <? _)%Z.
           ++ eapply safe_bind_eq; [now apply schedule_stays|]. intros k1 E1 Hk1. cbn [safe]. split; [|exact Logic.I].
              eapply stays_trans; [exact Hk1|].
              assert (Ec : k_chord k1 = k_chord k /\ k_cfg k1 = k_cfg k).
              { unfold schedule_timeout in E1. destruct (Nat.ltb _ _); [|discriminate].
                apply Ok_inj in E1. subst. auto. }
              destruct Ec as [Ec Ec'].
              apply chord_stays; rewrite ?Ec, ?Ec'; [apply Hk1| |apply W].
              split; [exact Hml|]. exists m. split; [exact Em|]. apply Hm; auto.
           ++ apply resolve_plan_stays; auto. intros m' Hm'. apply Hm. rewrite <- Hm'. congruence.
        -- apply abort_plan_stays'; auto.
      * eapply safe_bind; [apply enqueue_ok|]. intros k1 Hk1.
        assert (H1 : stays k k1 /\ h_state (k_chord k1) = CsDisambiguation /\ matches_ok k1).
        { destruct Hk1 as [->| ->].
          - split; [now apply stays_refl|]. split; auto.
          - assert (Hm' : forall m, h_match (k_chord k) = Some m ->
                match_ok (k_cfg k) (h_queue (k_chord k) ++ [mkKev code pressed time]) m).
            { intros m Hm'. apply match_ok_app. auto. }
            split; [|split; [exact Es|exact Hm']].
            apply chord_stays; auto. unfold chord_ok. cbn. rewrite Es. split; auto. }
        destruct H1 as [H1 [Hs1 Hm1]].
        destruct pressed; cbn [negb].
        -- destruct (check_chord_match k1) as [r k2] eqn:Er.
           destruct (check_stays k1 r k2 (proj1 H1) Hm1) as [G1 [G2 [G3 G4]]]; auto; [congruence|].
           apply (plan_wf_trans k k2); [eapply stays_trans; eauto|].
           destruct r; try (apply matched_plan_stays; auto; try apply G1; discriminate).
           apply abort_plan_stays', G1.
        -- apply (plan_wf_trans k k1); auto. apply abort_plan_stays', H1.
    + (* hold *)
      destruct Hc as [Hml [m [Em Hm]]].
      destruct (code =? 0)%N.
      * destruct (_ <=? _)%Z; [|split; [now apply stays_refl|exact Logic.I]].
        apply resolve_plan_stays; auto. intros m' Hm'. congruence.
      * eapply safe_bind; [apply enqueue_ok|]. intros k1 Hk1.
        assert (H1 : stays k k1 /\ h_match (k_chord k1) = Some m
                     /\ match_ok (k_cfg k1) (h_queue (k_chord k1)) m).
        { destruct Hk1 as [->| ->].
          - split; [now apply stays_refl|]. split; auto.
          - split; [|split; [exact Em|now apply match_ok_app]].
            apply chord_stays; auto. unfold chord_ok. cbn. rewrite Es. split; auto.
            exists m. split; auto. now apply match_ok_app. }
        destruct H1 as [H1 [Hs1 Hm1]].
        destruct pressed; cbn [negb]; [split; [exact H1|exact Logic.I]|].
        rewrite Hs1. destruct (deref_match_ok k1 m (proj1 H1) Hm1) as [ch [-> _]]. cbn [bind].
        destruct (in_keys _ _); [|split; [exact H1|exact Logic.I]].
        apply (plan_wf_trans k k1); auto. apply abort_plan_stays', H1.
Qed.

(* ---- pending keys ------------------------------------------------------------------ *)
Lemma pend_stays k p : wfk k -> sdesc (k_cfg k) (p_a1 p) -> sdesc (k_cfg k) (p_a2 p) ->
  p_dl p < length (c_layers (k_cfg k)) -> stays k (set_k_pend p k).
Proof.
  intros [W1 W2 W3 W4 W5 W6 W7 W7' W8 W9] H1 H2 H3. split; [|now apply wsteps_int].
  constructor; cbn; auto.
Qed.
Lemma pending_action_in p code pressed time :
  pending_action p code pressed time = p_a1 p \/ pending_action p code pressed time = p_a2 p
  \/ pending_action p code pressed time = DNone.
Proof.
  unfold pending_action. destruct (_ <=? _)%Z; auto. destruct (_ =? _)%N; auto.
  destruct (p_beh p); try (destruct (_ && _)); auto.
Qed.

Lemma decide_stays k p action time : wfk k ->
  sdesc (k_cfg k) (p_a1 p) -> sdesc (k_cfg k) (p_a2 p) -> p_dl p < length (c_layers (k_cfg k)) ->
  sdesc (k_cfg k) action -> sf (stays k) (decide k p action time).
Proof.
  intros W H1 H2 H3 Ha. unfold decide. cbv zeta.
  set (k1 := set_k_pend (set_p_code 0%N (set_p_queue [] p)) k).
  assert (Hk1 : stays k k1) by now apply pend_stays.
  set (k2 := match cache_set k1 (p_code p) _ with Some k' => k' | None => k1 end).
  assert (Hk2 : stays k k2).
  { subst k2. destruct (cache_set k1 (p_code p) _) eqn:E; auto.
    eapply stays_trans; [exact Hk1|]. eapply cache_set_stays; [apply Hk1| |exact E].
    intros e [= <-]. split; auto. }
  eapply safe_weak; [apply pd_stays; [apply Hk2|..]|].
  - rewrite (stays_cfg _ _ Hk2). exact Ha.
  - rewrite (stays_cfg _ _ Hk2). exact H3.
  - intros k'. now apply stays_trans.
Qed.

Lemma pending_plan_stays k code pressed time : wfk k ->
  sf (fun r => stays k (fst r)) (pending_plan k code pressed time).
Proof.
  intros W. unfold pending_plan. cbv zeta.
  destruct (wk_pend _ W) as [P1 [P2 P3]].
  destruct (_ =? 0)%N; [now apply stays_refl|].
  destruct (negb (code =? 0)%N && _); [exact Logic.I|].
  destruct (_ && _ && _ && _); [now apply stays_refl|].
  set (p1 := if (code =? 0)%N then k_pend k else _).
  assert (E : p_a1 p1 = p_a1 (k_pend k) /\ p_a2 p1 = p_a2 (k_pend k) /\ p_dl p1 = p_dl (k_pend k)).
  { subst p1. destruct (code =? 0)%N; auto. }
  destruct E as [E1 [E2 E3]].
  destruct (has_op _).
  - eapply safe_bind; [apply decide_stays; rewrite ?E1, ?E2, ?E3; auto|].
    + destruct (pending_action_in p1 code pressed time) as [->|[->| ->]]; rewrite ?E1, ?E2; auto. exact Logic.I.
    + intros k3 H3. exact H3.
  - apply pend_stays; rewrite ?E1, ?E2, ?E3; auto.
Qed.

(* ---- the rest -------------------------------------------------------------------- *)
Lemma expire_stays k time : wfk k -> sf (stays k) (expire_oneshot k time).
Proof.
  intros W. unfold expire_oneshot. destruct (_ && _); [|now apply stays_refl].
  apply sf_trans; [now apply clear_oneshot_stays|]. intros k1 [W1 _]. now apply um_stays.
Qed.
Lemma run_macro_stays k code time : wfk k -> sf (stays k) (run_active_macro k code time).
Proof.
  intros W. unfold run_active_macro. destruct (k_amacro k) as [m|] eqn:E; [|now apply stays_refl].
  destruct (negb _).
  - cbn [safe]. assert (H1 : stays k (set_k_amacro None k)).
    { split; [|now apply wsteps_int]. destruct W as [W1 W2 W3 W4 W5 W6 W7 W7' W8 W9].
      constructor; auto. discriminate. }
    eapply stays_trans; [exact H1|]. apply um_stays, H1.
  - destruct (_ <=? _)%Z; [|now apply stays_refl].
    eapply safe_bind; [apply macro_at_safe, (wk_amacro _ W _ E)|]. intros mm _. cbv zeta.
    assert (H1 : stays k (execute_macro k (k_amacro_layer k) mm)).
    { apply grow_stays; auto. apply execute_macro_grow. }
    set (k1 := execute_macro k (k_amacro_layer k) mm) in *.
    assert (H2 : stays k (set_k_macro_to (time + k_repeat k1)%Z k1)).
    { eapply stays_trans; [exact H1|]. destruct H1 as [W1 _]. apply int_stays; auto. repeat split. }
    eapply safe_weak; [apply schedule_stays, H2|]. intros k'. now apply stays_trans.
Qed.

Lemma lookup_ok k code : wfk k ->
  sdesc (k_cfg k) (fst (lookup_descriptor k code)) /\ snd (lookup_descriptor k code) < length (c_layers (k_cfg k)).
Proof.
  intros W. pose proof (wf_some _ (wk_cfg _ W)) as Hn.
  unfold lookup_descriptor. destruct (is_chord_code code).
  - cbn [fst snd].
    assert (G : (fun a => sdesc (k_cfg k) (ch_d (ac_chord a)) /\ ac_layer a < length (c_layers (k_cfg k)))
                (nth (N.to_nat (code - K_CHORD_1)) (k_achords k) zero_ac)).
    { apply Forall_nth_d; [apply (wk_ac _ W)|]. split; [exact Logic.I|cbn; lia]. }
    exact G.
  - assert (G1 : forall l, (forall i, In i l -> i < nlayers k) -> forall a,
        sdesc (k_cfg k) (snd (fst a)) /\ snd a < nlayers k ->
        sdesc (k_cfg k) (snd (fst (fold_left (lookup_step k code) l a)))
        /\ snd (fold_left (lookup_step k code) l a) < nlayers k).
    { intros l Hl a Ha. apply (fold_left_inv (fun a : Z * desc * nat =>
          sdesc (k_cfg k) (snd (fst a)) /\ snd a < nlayers k)); auto.
      intros [[mx d] dl] i H Hi. unfold lookup_step. destruct (is_active k i); auto.
      destruct (_ && _); auto. cbn [fst snd]. split; [apply keymap_sdesc, W|auto]. }
    assert (G2 : forall l, (forall i, In i l -> i < nlayers k) -> forall a,
        sdesc (k_cfg k) (snd (fst a)) /\ snd a < nlayers k ->
        sdesc (k_cfg k) (snd (fst (fold_left (composite_step k code) l a)))
        /\ snd (fold_left (composite_step k code) l a) < nlayers k).
    { intros l Hl a Ha. apply (fold_left_inv (fun a : nat * desc * nat =>
          sdesc (k_cfg k) (snd (fst a)) /\ snd a < nlayers k)); auto.
      intros [[mx d] dl] i H Hi. unfold composite_step. destruct (is_composite _); auto.
      destruct (_ && _ && _); auto. cbn [fst snd]. split; [apply keymap_sdesc, W|auto]. }
    assert (Hl : forall i, In i (seq 0 (nlayers k)) -> i < nlayers k).
    { intros i Hi. apply in_seq in Hi. lia. }
    specialize (G1 _ Hl (0%Z, DNone, 0)). cbn [fst snd] in G1.
    destruct (fold_left (lookup_step k code) _ _) as [[mx1 d1] dl1]. cbn [fst snd] in G1.
    specialize (G2 _ Hl (0, d1, dl1)). cbn [fst snd] in G2.
    destruct (fold_left (composite_step k code) _ _) as [[mx2 d2] dl2]. cbn [fst snd] in G2.
    assert (H0 : sdesc (k_cfg k) DNone /\ 0 < nlayers k) by (split; [exact Logic.I|exact Hn]).
    destruct (has_op d2); [apply G2, G1, H0|]. split; [exact Logic.I|exact Hn].
Qed.

Lemma handle_key_stays k code pressed time : wfk k -> sf (stays k) (handle_key k code pressed time).
Proof.
  intros W. unfold handle_key. destruct (_ =? 0)%N; [now apply stays_refl|]. destruct pressed.
  - destruct (cache_get k code); [now apply stays_refl|].
    destruct (lookup_ok k code W) as [Hd Hdl]. destruct (lookup_descriptor k code) as [d dl].
    cbn [fst snd] in *. destruct (cache_set _ _ _) as [k1|] eqn:E; [|now apply stays_refl].
    assert (H1 : stays k k1).
    { eapply cache_set_stays; [exact W| |exact E]. intros e [= <-]. split; auto. }
    eapply safe_weak; [apply pd_stays; [apply H1|..]|].
    + now rewrite (stays_cfg _ _ H1).
    + now rewrite (stays_cfg _ _ H1).
    + intros k'. now apply stays_trans.
  - destruct (cache_get k code) as [i|]; [|now apply stays_refl].
    destruct (cache_nth_ok k i W) as [Hd Hdl].
    destruct (cache_set _ _ _) as [k1|] eqn:E; [|now apply stays_refl].
    assert (H1 : stays k k1) by (eapply cache_set_stays; [exact W| |exact E]; discriminate).
    eapply safe_weak; [apply pd_stays; [apply H1|..]|].
    + rewrite (stays_cfg _ _ H1). exact Hd.
    + rewrite (stays_cfg _ _ H1). exact Hdl.
    + intros k'. now apply stays_trans.
Qed.

Lemma rest_step_stays k code pressed time : wfk k -> sf (stays k) (rest_step k code pressed time).
Proof.
  intros W. unfold rest_step. apply sf_trans; [now apply expire_stays|]. intros k1 [W1 _].
  apply sf_trans; [now apply run_macro_stays|]. intros k2 [W2 _]. now apply handle_key_stays.
Qed.

Lemma set_inactive_stays k : wfk k -> stays k (set_cstate CsInactive k).
Proof. intros W. apply chord_stays; auto; [exact Logic.I|apply W]. Qed.
Lemma set_timeouts_stays k l : wfk k -> stays k (set_k_timeouts l k).
Proof. intros W. apply int_stays; auto. repeat split. Qed.

(* ---- whole events ---------------------------------------------------------------- *)
Section WithStep.
(* any property preserved by the layer-respecting steps *)
Variable J : kbd -> Prop.
Hypothesis HJ : forall k k', wprim k k' -> wf_config (k_cfg k) -> J k -> J k'.

Lemma wprim_cfg k k' : wprim k k' -> k_cfg k' = k_cfg k /\ k_orig k' = k_orig k.
Proof.
  destruct 1; auto.
  - unfold activate_layer in H0. bauto H0. auto.
  - unfold deactivate_layer in H0. bauto H0. auto.
  - unfold to_layout. destruct (fold_drop_shape (seq 1 (nlayers k - 1)) k) as [ls ->].
    destruct (Nat.eqb idx 0); auto.
Qed.

Lemma wsteps_J k k' : wsteps k k' -> wf_config (k_cfg k) -> J k -> J k'.
Proof.
  induction 1; auto. intros Hw Hj. destruct (wprim_cfg _ _ H) as [E _].
  apply IHwsteps; [now rewrite E|eauto].
Qed.

Definition wfJ (k : kbd) : Prop := wfk k /\ J k.

Lemma stays_J k k' : wfJ k -> stays k k' -> wfJ k'.
Proof. intros [W Hj] [W' Hs]. split; auto. eapply wsteps_J; eauto. apply W. Qed.

Theorem process_event_wfJ fuel k code pressed time : wfJ k ->
  sf (fun r => wfJ (fst r)) (process_event fuel k code pressed time).
Proof.
  intros H. apply (lift wfJ (fun _ => True) engine_crash); auto.
  - intros k0 c0 p0 t0 H0 _. eapply safe_weak; [apply chord_plan_stays, H0|].
    intros [k1 pl] [G1 G2]. cbn [fst snd] in *. unfold plan_ok.
    assert (G3 := stays_J _ _ H0 G1).
    destruct pl as [| | |press rest]; auto. split; auto. split; auto.
    destruct rest as [evs|]; [|congruence]. exists evs. split; auto. now apply Forall_forall.
  - intros k0 H0. eapply stays_J; eauto. apply set_inactive_stays, H0.
  - intros k0 c0 p0 t0 H0 _. eapply safe_weak; [apply pending_plan_stays, H0|].
    intros [k1 pl] G1. cbn [fst] in G1. unfold pplan_ok. assert (G3 := stays_J _ _ H0 G1).
    destruct pl; auto. split; auto. now apply Forall_forall.
  - intros k0 c0 p0 t0 H0 _. eapply safe_weak; [apply rest_step_stays, H0|].
    intros k1 G1. eapply stays_J; eauto.
  - intros k0 live H0. eapply stays_J; eauto. apply set_timeouts_stays, H0.
Qed.
Theorem process_events_wfJ fuel k evs : wfJ k ->
  sf (fun r => wfJ (fst r)) (kbd_process_events fuel k evs).
Proof.
  intros H. apply (lift_loop wfJ (fun _ => True) engine_crash (fun _ => Logic.I)); auto.
  - intros. now apply process_event_wfJ.
  - now apply Forall_forall.
Qed.
End WithStep.
