(* Proofs about timers: every deadline in the future has one. *)
From Verif Require Import Base Lib Keys Types MacroExec Kbd Config Outside Engine Steps OneProofs StepProofs Inv LiftOk ClassInv
  Ini ParseFrame TimerProofs SpecTerm Times PropTerm SpecTimer.

Definition settings (c : config) : Z * Z := (c_chord_interkey c, c_chord_hold c).

Section Timely.
Variable T : Z.
Variable S0 : Z * Z.

Definition punctual (e : kev) : Prop := (ev_time e <= T)%Z.
Definition ccov (k : kbd) : Prop :=
  (h_state (k_chord k) = CsDisambiguation -> (T < h_last (k_chord k) + fst S0)%Z ->
     In (h_last (k_chord k) + fst S0)%Z (k_timeouts k))
  /\ (h_state (k_chord k) = CsHold -> (T < h_last (k_chord k) + snd S0)%Z ->
     exists x, (h_last (k_chord k) + snd S0 <= x)%Z /\ In x (k_timeouts k)).
Definition timely (k : kbd) : Prop :=
  covered T k /\ ccov k /\ Forall (fun e => punctual e /\ ev_code e <> 0%N) (p_queue (k_pend k)) /\ Forall punctual (h_queue (k_chord k))
  /\ (h_last (k_chord k) <= T)%Z /\ settings (k_cfg k) = S0.

Definition grown (k k' : kbd) : Prop :=
  (forall x, In x (k_timeouts k) -> In x (k_timeouts k')) /\ k_cfg k' = k_cfg k /\ k_pend k' = k_pend k
  /\ k_oneshot_to k' = k_oneshot_to k /\ k_amacro k' = k_amacro k /\ k_macro_to k' = k_macro_to k.
Lemma grown_covered k k' : grown k k' -> covered T k -> covered T k'.
Proof.
  intros [G1 [G2 [G3 [G4 [G5 G6]]]]] [A1 [A2 A3]]. unfold covered. rewrite G3, G4, G5, G6. auto.
Qed.
Lemma changed_grown k q a ts : (forall x, In x (k_timeouts k) -> In x ts) ->
  grown k (set_k_timeouts ts (set_k_achords a (set_k_chord q k))).
Proof. intros H. repeat split; auto. Qed.

Definition cl (k k1 : kbd) : Prop :=
  (forall x, In x (k_timeouts k) -> In x (k_timeouts k1)) /\ ccov k1 /\ (h_last (k_chord k1) <= T)%Z.
Lemma resolve_cl k k1 pl : resolve_plan k = Ok (k1, pl) -> (h_last (k_chord k) <= T)%Z -> cl k k1.
Proof.
  unfold resolve_plan. intros H Hl. cbv zeta in H. destruct (h_match _).
  - bstep H ch E. destruct (free_chord _ _); [|discriminate]. apply Ok_inj, pair_equal_spec in H as [<- _].
    split; [auto|split; [|exact Hl]]. split; intros X; discriminate X.
  - apply Ok_inj, pair_equal_spec in H as [<- _]. split; [auto|split; [|exact Hl]]. split; intros X; discriminate X.
Qed.
Lemma abort_cl k k1 pl : abort_plan k = Ok (k1, pl) -> (h_last (k_chord k) <= T)%Z -> cl k k1.
Proof. unfold abort_plan. intros H Hl. exact (resolve_cl _ _ _ H Hl). Qed.
Lemma matched_cl k r time k1 pl : matched_plan k r time = Ok (k1, pl) -> (time <= T)%Z -> settings (k_cfg k) = S0 -> cl k k1.
Proof.
  unfold matched_plan. intros H Ht Es. cbv zeta in H.
  assert (G : forall k2, schedule_timeout (set_cstate CsDisambiguation (set_k_chord (set_h_last time (k_chord k)) k))
      (time + c_chord_interkey (k_cfg k))%Z = Ok k2 -> cl k k2).
  { intros k2 E. apply schedule_ok in E. subst k2. split; [|split; [|exact Ht]].
    - intros x Hx. apply in_or_app. now left.
    - split; [|intros X; discriminate X]. intros _ _. apply in_or_app. right. rewrite <- Es. now left. }
  assert (G2 : forall k2, schedule_timeout (set_cstate CsHold (set_k_chord (set_h_last time (k_chord k)) k))
      (time + c_chord_hold (k_cfg k))%Z = Ok k2 -> cl k k2).
  { intros k2 E. apply schedule_ok in E. subst k2. split; [|split; [|exact Ht]].
    - intros x Hx. apply in_or_app. now left.
    - split; [intros X; discriminate X|]. intros _ _. exists (time + c_chord_hold (k_cfg k))%Z.
      split; [rewrite <- Es; cbn; lia|]. apply in_or_app. right. now left. }
  destruct r; try (destruct (_ =? 0)%Z; [exact (resolve_cl _ _ _ H Ht)|]);
    bstep H k2 E; apply Ok_inj, pair_equal_spec in H as [<- _]; auto.
Qed.
Lemma cl_from k k0 k1 : (forall x, In x (k_timeouts k) -> In x (k_timeouts k0)) -> cl k0 k1 -> cl k k1.
Proof. intros H [A [B C]]. split; auto. Qed.
Lemma chord_cl k code pressed time k1 pl : chord_plan k code pressed time = Ok (k1, pl) -> (time <= T)%Z ->
  settings (k_cfg k) = S0 -> ccov k -> (h_last (k_chord k) <= T)%Z -> cl k k1.
Proof.
  intros H Ht Es Hc Hl.
  assert (Kp : forall k', k_timeouts k' = k_timeouts k -> h_last (k_chord k') = h_last (k_chord k) ->
            h_state (k_chord k') = h_state (k_chord k) -> cl k k').
  { intros k' A B C. split; [intros x; now rewrite A|]. unfold ccov. rewrite A, B, C. auto. }
  unfold chord_plan in H. cbv zeta in H.
  destruct (if negb (code =? 0)%N && negb pressed then chord_of_key (k_achords k) code 0 else None) as [i|].
  { unfold chord_up in H. cbv zeta in H. apply Ok_inj, pair_equal_spec in H as [<- <-]. now apply Kp. }
  destruct (h_state (k_chord k)) eqn:Est.
  - apply Ok_inj, pair_equal_spec in H as [<- <-]. now apply Kp.
  - bstep H k2 E2. destruct (check_chord_match k2) as [r k3] eqn:E3. apply enqueue_same in E2 as [A1 [A2 [A3 A4]]].
    apply check_same in E3 as [B1 [B2 [B3 B4]]]. cbn [k_timeouts k_cfg k_chord set_k_chord h_last h_state set_h_match set_h_queue] in *.
    assert (C3 : settings (k_cfg k3) = S0) by (now rewrite B2, A2).
    assert (T3 : forall x, In x (k_timeouts k) -> In x (k_timeouts k3)) by (intros x; now rewrite B1, A1).
    destruct r; [|now eapply cl_from; [exact T3|eapply matched_cl; eauto]..].
    apply Ok_inj, pair_equal_spec in H as [<- <-]. apply Kp; congruence.
  - destruct (code =? 0)%N.
    + destruct (Z.leb_spec (c_chord_interkey (k_cfg k)) (time - h_last (k_chord k))) as [Li|Li]; [|apply Ok_inj, pair_equal_spec in H as [<- <-]; now apply Kp].
      destruct (h_match _).
      * destruct (Z.ltb_spec 0 (c_chord_hold (k_cfg k) - c_chord_interkey (k_cfg k))) as [L|L].
        -- bstep H k2 E. apply Ok_inj, pair_equal_spec in H as [<- <-]. apply schedule_ok in E. subst k2.
           split; [|split; [|exact Hl]].
           ++ intros x Hx. apply in_or_app. now left.
           ++ split; [intros X; discriminate X|]. intros _ _. exists (time + (c_chord_hold (k_cfg k) - c_chord_interkey (k_cfg k)))%Z.
              split; [rewrite <- Es; cbn [h_last k_chord set_cstate set_k_chord set_h_state settings snd set_k_timeouts]; lia|].
              apply in_or_app. right. now left.
        -- eapply resolve_cl; eauto.
      * eapply abort_cl; eauto.
    + bstep H k2 E2. apply enqueue_same in E2 as [A1 [A2 [A3 A4]]].
      assert (T2 : forall x, In x (k_timeouts k) -> In x (k_timeouts k2)) by (intros x; now rewrite A1).
      rewrite <- A3 in Hl. rewrite <- A2 in Es.
      destruct (negb pressed); [apply (cl_from _ _ _ T2); eapply abort_cl; eauto|].
      destruct (check_chord_match k2) as [r k3] eqn:E3. apply check_same in E3 as [B1 [B2 [B3 B4]]].
      rewrite <- B3 in Hl. rewrite <- B2 in Es. rewrite <- B1 in T2. apply (cl_from _ _ _ T2).
      destruct r; [eapply abort_cl|eapply matched_cl..]; eauto.
  - destruct (code =? 0)%N.
    + destruct (_ <=? _)%Z; [|apply Ok_inj, pair_equal_spec in H as [<- <-]; now apply Kp].
      eapply resolve_cl; eauto.
    + bstep H k2 E2. apply enqueue_same in E2 as [A1 [A2 [A3 A4]]].
      assert (T2 : forall x, In x (k_timeouts k) -> In x (k_timeouts k2)) by (intros x; now rewrite A1).
      assert (Hk2 : cl k k2) by (apply Kp; congruence). rewrite <- A3 in Hl.
      destruct (negb pressed); [|apply Ok_inj, pair_equal_spec in H as [<- <-]; exact Hk2].
      destruct (h_match _); [|discriminate]. bstep H ch E4.
      destruct (in_keys _ _); [apply (cl_from _ _ _ T2); eapply abort_cl; eauto|apply Ok_inj, pair_equal_spec in H as [<- <-]; exact Hk2].
Qed.

Lemma timely_grown k k' : timely k -> grown k k' -> ccov k' -> (h_last (k_chord k') <= T)%Z ->
  Forall punctual (h_queue (k_chord k')) -> timely k'.
Proof.
  intros [A [B [C [D [E F]]]]] G Hc Hl Hq. split; [eapply grown_covered; eauto|]. split; [exact Hc|].
  destruct G as [G1 [G2 [G3 _]]]. rewrite G2, G3. auto.
Qed.
Lemma chord_timely k code pressed time r : timely k -> punctual (mkKev code pressed time) ->
  chord_plan k code pressed time = Ok r -> plan_fine timely punctual time r.
Proof.
  intros Hk Ht H. destruct r as [k1 pl]. pose proof Hk as [A [B [C [D [E F]]]]].
  pose proof (chord_cl _ _ _ _ _ _ H Ht F B E) as [L1 [L2 L3]].
  pose proof (chord_plan_shape _ _ _ _ _ H) as [S1 [S2 [S3 _]]].
  assert (Q : forall e, In e (h_queue (k_chord k)) \/ In e [mkKev code pressed time] -> punctual e).
  { rewrite Forall_forall in D. intros e [He|[<-|[]]]; auto. }
  assert (X : timely k1).
  { apply (timely_grown k); auto; [|apply Forall_forall; auto].
    destruct S1 as [q [acs [ts [-> _]]]]. split; [exact L1|repeat split]. }
  unfold plan_fine. destruct pl as [| |i|press rest]; auto.
  split; [exact X|]. split; [intros i _; exact L3|]. intros evs ->. apply Forall_forall. auto.
Qed.
Lemma covered_other k p : covered T k -> p_code p = 0%N \/ (p_code p = p_code (k_pend k) /\ p_expire p = p_expire (k_pend k)) ->
  covered T (set_k_pend p k).
Proof.
  intros [A1 [A2 A3]] Hp. split; [|split; auto]. cbn [k_pend set_k_pend k_timeouts].
  destruct Hp as [->|[-> ->]]; [congruence|auto].
Qed.
Lemma pending_timely k code pressed time r : timely k -> punctual (mkKev code pressed time) ->
  pending_plan k code pressed time = Ok r -> pplan_ok timely punctual r.
Proof.
  intros Hk Ht H. pose proof Hk as [A [B [C [D [E F]]]]]. unfold pending_plan in H. cbv zeta in H.
  destruct (_ =? 0)%N; [apply Ok_inj in H; subst; exact Hk|].
  destruct (_ && _); [discriminate|]. destruct (_ && _); [apply Ok_inj in H; subst; exact Hk|].
  set (p1 := if (code =? 0)%N then k_pend k else set_p_queue (p_queue (k_pend k) ++ [mkKev code pressed time]) (k_pend k)) in *.
  assert (Hp : p_code p1 = p_code (k_pend k) /\ p_expire p1 = p_expire (k_pend k) /\ Forall (fun e => punctual e /\ ev_code e <> 0%N) (p_queue p1)).
  { unfold p1. destruct (N.eqb_spec code 0); auto. repeat split. cbn [p_queue set_p_queue]. apply Forall_app. auto. }
  clearbody p1. destruct Hp as [P1 [P2 P3]]. destruct (has_op _).
  - bstep H k3 E3. apply Ok_inj in H. subst r. cbn [pplan_ok]. split; [|revert P3; apply Forall_impl; now intros e []].
    unfold decide in E3. cbv zeta in E3.
    set (k1 := set_k_pend (set_p_code 0%N (set_p_queue [] p1)) k) in *.
    assert (T1 : timely k1).
    { split; [apply covered_other; auto|]. split; [exact B|]. split; [constructor|]. auto. }
    set (k2 := match cache_set k1 (p_code p1) (Some (mkCe 0 (pending_action p1 code pressed time) (p_dl p1) 0)) with Some k' => k' | None => k1 end) in *.
    assert (T2 : timely k2).
    { unfold k2. destruct (cache_set _ _ _) as [k'|] eqn:Ec; [|exact T1]. apply cache_set_spec in Ec as [i [e [-> _]]]. exact T1. }
    clearbody k1 k2. unfold do_desc in E3. pose proof (pd_cov T _ _ _ _ _ _ _ _ E3) as Cv.
    pose proof (pd_tgrow _ _ _ _ _ _ _ _ E3) as [new Tg]. apply pd_frame in E3 as [F1 [_ [F3 [_ [F5 _]]]]].
    destruct T2 as [A2 [B2 [C2 [D2 [E2 G2]]]]].
    split; [now apply Cv|]. unfold ccov. rewrite F1, F3, F5, Tg. repeat split; auto.
    + intros X Y. apply in_or_app. left. now apply B2.
    + intros X Y. destruct (proj2 B2 X Y) as [x [X1 X2]]. exists x. split; auto. apply in_or_app. now left.
  - apply Ok_inj in H. subst r. cbn [pplan_ok]. split; [apply covered_other; auto|]. repeat split; auto; apply B.
Qed.
Lemma rest_timely k code pressed time k' : timely k -> rest_step k code pressed time = Ok k' -> timely k'.
Proof.
  intros [A [B [C [D [E F]]]]] H. pose proof (rest_cov T _ _ _ _ _ H) as Cv.
  pose proof (rest_tgrow _ _ _ _ _ H) as [new Tg]. apply rest_frame in H as [F1 [_ [F3 [_ [F5 _]]]]].
  split; [now apply Cv|]. unfold ccov. rewrite F1, F3, F5, Tg. repeat split; auto.
  - intros X Y. apply in_or_app. left. now apply B.
  - intros X Y. destruct (proj2 B X Y) as [x [X1 X2]]. exists x. split; auto. apply in_or_app. now left.
Qed.
Lemma time_timely k t : timely k -> (t <= T)%Z -> timely (set_k_timeouts (filter (fun x => (t <? x)%Z) (k_timeouts k)) k).
Proof.
  intros [[A1 [A2 A3]] [[B1 B2] [C [D [E F]]]]] Ht.
  assert (G : forall x, (T < x)%Z -> In x (k_timeouts k) -> In x (filter (fun x => (t <? x)%Z) (k_timeouts k))).
  { intros x Hx Hi. apply filter_In. split; auto. lia. }
  repeat split; auto; kcbn; intros X Y; try (apply G; auto; fail).
  destruct (B2 X Y) as [x [X1 X2]]. exists x. split; auto. apply G; auto. cbn [k_chord set_k_timeouts] in Y. lia.
Qed.
Lemma events_timely fuel k evs k' d : timely k -> Forall punctual evs -> kbd_process_events fuel k evs = Ok (k', d) -> timely k'.
Proof.
  intros Hk Hq H. eapply (liftok_events timely punctual); [..|exact Hk|exact Hq|exact H].
  - intros e t He Ht. unfold punctual in *. cbn [ev_time]. lia.
  - intros. eapply chord_timely; eauto.
  - intros k0 [A [B [C [D [E F]]]]]. split; [exact A|]. split; [split; intros X; discriminate X|]. repeat split; auto.
  - intros. eapply pending_timely; eauto.
  - intros. eapply rest_timely; eauto.
  - intros k0 e H0 He. now apply time_timely.
Qed.
End Timely.

Lemma timely_later T T' S0 k : (T <= T')%Z -> timely T S0 k -> timely T' S0 k.
Proof.
  intros H [[A1 [A2 A3]] [[B1 B2] [C [D [E F]]]]].
  assert (G : forall l, Forall (punctual T) l -> Forall (punctual T') l).
  { intros l. apply Forall_impl. unfold punctual. intros; lia. }
  assert (G2 : forall l, Forall (fun e => punctual T e /\ ev_code e <> 0%N) l -> Forall (fun e => punctual T' e /\ ev_code e <> 0%N) l).
  { intros l. apply Forall_impl. unfold punctual. intros e [X Y]. split; [lia|exact Y]. }
  split; [split; [|split]|split; [split|]]; try (intros X Y; (apply A1 || apply A2 || apply A3 || apply B1 || apply B2); auto; lia).
  split; [|split; [|split]]; auto. lia.
Qed.
Lemma ordered_bounds T evs T' : ordered T evs T' -> (T <= T')%Z /\ Forall (punctual T') evs.
Proof.
  induction 1 as [T|T e rest T' H H0 [IH1 IH2]]; [split; [lia|constructor]|]. split; [lia|]. constructor; auto.
Qed.
Lemma add_entry_settings c exp c' ok : config_add_entry c exp = Ok (c', ok) -> settings c' = settings c.
Proof.
  intros E. rewrite add_entry_unfold in E. destruct (N.leb _ _); [injection E as <- _; easy|]. destruct (split_entry _) as [l' s'].
  destruct (parse_kvp s') as [k v].
  destruct (config_get_layer_index _ _); [|injection E as <- _; easy]. bstep E r Er. destruct r as [c4 d].
  assert (G : grows c c4). { destruct v; [eapply parse_desc_grows; exact Er|injection Er as <- _; apply grows_refl]. }
  destruct G as [ds [ms [ks ->]]]. destruct d as [d|]; [|injection E as <- _; easy].
  destruct (set_layer_entry _ _ _ _); injection E as <- _; easy.
Qed.
Lemma events_orig fuel k evs k' d : kbd_process_events fuel k evs = Ok (k', d) -> k_cfg k' = k_cfg k /\ k_orig k' = k_orig k.
Proof.
  intros H. apply (liftok_events (fun x => k_cfg x = k_cfg k /\ k_orig x = k_orig k) (fun _ => True)) in H; auto.
  - intros k0 code pressed time [k1 pl] I0 _ H0. pose proof (chord_plan_shape _ _ _ _ _ H0) as [[q [acs [ts [-> _]]]] _].
    destruct pl; cbn [plan_fine]; auto. split; auto. split; auto. intros. apply Forall_forall; auto.
  - intros k0 code pressed time r [I1 I2] _ H0. unfold pending_plan in H0. cbv zeta in H0.
    destruct (_ =? 0)%N; [apply Ok_inj in H0; subst; split; auto|].
    destruct (_ && _); [discriminate|]. destruct (_ && _); [apply Ok_inj in H0; subst; split; auto|].
    destruct (has_op _); [|apply Ok_inj in H0; subst; split; auto].
    bstep H0 k3 E3. apply Ok_inj in H0. subst r. cbn [pplan_ok]. split; [|apply Forall_forall; auto].
    unfold decide in E3. apply do_desc_frame in E3 as [F1 [F2 _]]. rewrite F1, F2.
    destruct (cache_set _ _ _) as [k2|] eqn:E; [apply cache_set_frame in E as [C1 [C2 _]]; rewrite C1, C2|]; split; auto.
  - intros k0 code pressed time k1 [I1 I2] _ _ H0. apply rest_frame in H0 as [F1 [F2 _]]. rewrite F1, F2. auto.
  - apply Forall_forall; auto.
Qed.
Lemma timeline_timely c T k : timeline c T k ->
  timely T (settings c) k /\ settings (k_orig k) = settings c /\ (0 <= T)%Z.
Proof.
  induction 1 as [clk T H|T k fuel evs k' d T' H IH Ho He|T k exp k' ok H IH He|T k k' H IH Ho].
  - split; [|split; [reflexivity|exact H]]. split; [split; [|split]|split; [split|]]; try (intros X; exfalso; apply X; reflexivity).
    + intros X; discriminate X.
    + intros X; discriminate X.
    + split; [constructor|]. split; [constructor|]. split; [exact H|reflexivity].
  - destruct IH as [I1 [I2 I3]]. apply ordered_bounds in Ho as [O1 O2].
    split; [|split; [|lia]].
    + eapply events_timely; [|exact O2|exact He]. eapply timely_later; eauto.
    + apply events_orig in He as [_ ->]. exact I2.
  - destruct IH as [I1 [I2 I3]]. split; [|split; [|exact I3]].
    + unfold kbd_eval in He. destruct (str_eqb _ _).
      * apply Ok_inj, pair_equal_spec in He as [<- _]. destruct I1 as [A [B [C [D [E F]]]]].
        split; [exact A|]. split; [exact B|]. repeat split; auto.
      * bstep He r Er. destruct r as [c1 o1]. apply Ok_inj, pair_equal_spec in He as [<- _].
        destruct I1 as [A [B [C [D [E F]]]]]. split; [exact A|]. split; [exact B|]. repeat split; auto.
        apply add_entry_settings in Er. cbn [k_cfg set_k_cfg]. congruence.
    + unfold kbd_eval in He. destruct (str_eqb _ _).
      * apply Ok_inj, pair_equal_spec in He as [<- _]. exact I2.
      * bstep He r Er. destruct r as [c1 o1]. apply Ok_inj, pair_equal_spec in He as [<- _]. exact I2.
  - destruct Ho; exact IH.
Qed.
