(* Which effects of the daemon are answers to clients (C72). *)
From Verif Require Import Base Lib Types Keys MacroExec Kbd Str MacroParse Config Match Device Daemon
  SpecDaemon DaemonProofs SpecServe.
Local Open Scope N_scope.

(* As the sections Keeps and Handler of DaemonProofs.v, for relations that an answer need not
   keep. *)
Section Kept.
  Variable R : dstate -> dstate -> Prop.
  Hypothesis R_refl : forall d, R d d.
  Hypothesis R_trans : forall a b c, R a b -> R b c -> R a c.
  Hypothesis R_emit : forall v d, match v with VKey _ _ | VReply _ _ => False | _ => True end -> R d (vemit v d).
  Hypothesis R_key : forall c s d, R d (dsend_key c s d).
  Hypothesis R_nw : forall n d, R d (set_d_nw n d).
  Hypothesis R_lst : forall n d, R d (set_d_lst n d).
  Hypothesis R_clock : forall n d, R d (set_d_clock n d).
  Hypothesis R_store : forall p k d, R d (store p k d).
  Lemma sv_write_keeps wr con text d : R d (fst (write_msg wr con text d)).
  Proof using R_trans R_emit R_nw.
    unfold write_msg. cbn [fst]. eapply R_trans; [|apply R_nw]; apply R_emit; exact Logic.I.
  Qed.
  Lemma sv_notify_keeps wr text ls : forall keep d, R d (notify wr text ls keep d).
  Proof using R_trans R_emit R_nw R_lst.
    induction ls as [|c r IH]; cbn [notify]; intros keep d; [apply R_lst|].
    pose proof (sv_write_keeps wr c text d) as W. destruct (write_msg wr c text d) as [d1 ok]. cbn [fst] in W.
    destruct ok; [eapply R_trans; [exact W|apply IH]|].
    eapply R_trans; [exact W|]. eapply R_trans; [|apply IH]; apply R_emit; exact Logic.I.
  Qed.
  Lemma sv_leds_keeps p ind devs : forall i d, R d (set_leds p ind devs i d).
  Proof using R_refl R_trans R_emit.
    induction devs as [|dv r IH]; cbn [set_leds]; intros i d; [apply R_refl|].
    eapply R_trans; [|apply IH]. destruct (dv_data dv) as [q|]; [|apply R_refl].
    destruct (kptr_eqb q p); [apply R_emit; exact Logic.I|apply R_refl].
  Qed.
  Lemma sv_layer_keeps wr p c i on ind d d' : on_layer_change wr p c i on ind d = Ok d' -> R d d'.
  Proof using R_refl R_trans R_emit R_nw R_lst.
    unfold on_layer_change. intros H.
    assert (K : R d (if c_indicator c then set_leds p ind (d_devs d) 0 d else d))
      by (destruct (c_indicator c); [apply sv_leds_keeps|apply R_refl]).
    set (d1 := if c_indicator c then set_leds p ind (d_devs d) 0 d else d) in *. clearbody d1.
    destruct (d_lst d1) as [|x l]; [apply Ok_inj in H; now subst|].
    destruct (buf_text _ _); cbn [bind] in H; try discriminate H. apply Ok_inj in H. subst.
    eapply R_trans; [exact K|apply sv_notify_keeps].
  Qed.
  Lemma sv_deliver_keeps wr p c os : forall d d', deliver_all wr p c os d = Ok d' -> R d d'.
  Proof using R_refl R_trans R_emit R_nw R_lst R_key.
    induction os as [|o r IH]; cbn [deliver_all]; intros d d' H; [apply Ok_inj in H; subst; apply R_refl|].
    destruct (deliver wr p c d o) as [d1| | |] eqn:E; cbn [bind] in H; try discriminate H.
    apply IH in H. eapply R_trans; [|exact H]. unfold deliver in E. destruct o.
    - apply Ok_inj in E. subst. apply R_key.
    - eapply sv_layer_keeps; eauto.
    - apply Ok_inj in E. subst. apply R_emit; exact Logic.I.
    - apply Ok_inj in E. subst. apply R_emit; exact Logic.I.
  Qed.
  Lemma sv_run_keeps fuel wr p ev d d' t : run_kbd fuel wr p ev d = Ok (d', t) -> R d d'.
  Proof using R_refl R_trans R_emit R_nw R_lst R_key R_clock R_store.
    unfold run_kbd. intros H. destruct (deref d p) as [k| | |]; cbn [bind] in H; try discriminate H.
    destruct (kbd_process_events _ _ _) as [[k1 t1]| | |]; cbn [bind] in H; try discriminate H.
    destruct (deliver_all _ _ _ _ _) as [d1| | |] eqn:E; cbn [bind] in H; try discriminate H.
    apply Ok_inj in H. injection H as <- _. apply sv_deliver_keeps in E.
    eapply R_trans; [apply R_clock|]. eapply R_trans; [exact E|apply R_store].
  Qed.
  Lemma sv_send_layers_keeps wr con k is : forall d d' ok, send_layers wr con k is d = (d', ok) -> R d d'.
  Proof using R_refl R_trans R_emit R_nw.
    induction is as [|i r IH]; cbn [send_layers]; intros d d' ok H; [injection H as <- _; apply R_refl|].
    destruct (andb _ _); [|eauto].
    pose proof (sv_write_keeps wr con (43 :: lname (k_cfg k) i ++ [10]) d) as W.
    destruct (write_msg wr con _ d) as [d1 ok1]. cbn [fst] in W.
    destruct ok1; [eapply R_trans; eauto|injection H as <- _; exact W].
  Qed.
  Lemma sv_listener_keeps wr con d d' : add_listener wr con d = Ok d' -> R d d'.
  Proof using R_refl R_trans R_emit R_nw R_lst.
    unfold add_listener. intros H. destruct (Nat.eqb _ _).
    { apply Ok_inj in H. subst. eapply R_trans; [|apply R_emit; exact Logic.I]; apply R_emit; exact Logic.I. }
    destruct (d_active d) as [p|]; [|apply Ok_inj in H; subst; apply R_lst].
    destruct (deref d p) as [k| | |]; cbn [bind] in H; try discriminate H.
    pose proof (sv_write_keeps wr con (47 :: lname (k_cfg k) (current_layout k) ++ [10]) d) as W.
    destruct (write_msg wr con _ d) as [d1 ok1]. cbn [fst] in W.
    destruct (send_layers _ _ _ _ _) as [d2 ok2] eqn:E. apply sv_send_layers_keeps in E.
    apply Ok_inj in H. subst. eapply R_trans; [exact W|]. eapply R_trans; [exact E|].
    destruct ok2; [apply R_lst|apply R_emit; exact Logic.I].
  Qed.
End Kept.
Section Parts.
  Variables (fuel : nat) (wr : nat -> bool) (R : dstate -> dstate -> Prop) (L : nat -> Prop) (B Q W : Prop) (Ad : nat -> Prop).
  Hypothesis R_refl : forall d, R d d.
  Hypothesis R_trans : forall a b c, R a b -> R b c -> R a c.
  Hypothesis R_emit : forall v d, match v with VKey _ _ | VReply _ _ | VMsg _ _ _ | VLed _ _ _ => False | _ => True end -> R d (vemit v d).
  Hypothesis R_led : forall i l v d, W -> R d (vemit (VLed i l v) d).
  Hypothesis R_key : forall c s d, R d (dsend_key c s d).
  Hypothesis R_run : forall p ev d d' t, run_kbd fuel wr p ev d = Ok (d', t) -> R d d'.
  Hypothesis R_motion : forall p k x y d, deref d p = Ok k ->
    (exists dx dy vs, scroll_move (k_scroll k) dx dy = Ok (mkScroll x y (s_sens (k_scroll k)) (s_active (k_scroll k)), vs)) ->
    R d (store p (set_k_scroll (mkScroll x y (s_sens (k_scroll k)) (s_active (k_scroll k))) k) d).
  Hypothesis R_active : forall p d, (exists i dv, nth_error (d_devs d) i = Some dv /\ dv_data dv = Some p) -> R d (set_d_active (Some p) d).
  Hypothesis R_tap : forall c d, R d (tap c d).
  Hypothesis R_shift : forall c d, R d (vemit (VKey K_LEFTSHIFT false) (tap c (vemit (VKey K_LEFTSHIFT true) d))).
  Hypothesis R_listen : forall con d d', L con -> add_listener wr con d = Ok d' -> R d d'.
  Hypothesis R_bind : forall exp d ks ok, B -> eval_all (d_ents d) exp = Ok (ks, ok) -> R d (set_d_ents ks d).
  Hypothesis R_reload : forall texts grabs d d', Q -> reload texts grabs d = Ok d' -> R d d'.
  Hypothesis R_times : forall l t d, R d (set_d_times l t d).
  Hypothesis R_add : forall i dv grab d, Ad i -> nth_error (d_devs d) i = Some dv ->
    R d (set_d_devs (upd i (manage_device d grab dv) (d_devs d)) d).
  Lemma sv_keypress_rel p c ts d d' t : process_keypress fuel wr p c ts d = Ok (d', t) -> R d d'.
  Proof using R_refl R_trans R_run.
    unfold process_keypress. intros H.
    destruct (run_kbd _ _ _ _ _) as [[d1 t1]| | |] eqn:E; cbn [bind] in H; try discriminate H.
    apply R_run in E, H. eauto.
  Qed.
  Lemma sv_keypresses_rel p c ts n : forall tmo d d' t, keypresses fuel wr p c ts n tmo d = Ok (d', t) -> R d d'.
  Proof using R_refl R_trans R_run.
    induction n as [|n IH]; cbn [keypresses]; intros tmo d d' t H.
    - apply Ok_inj in H. injection H as <- _. apply R_refl.
    - destruct (process_keypress _ _ _ _ _ _) as [[d1 t1]| | |] eqn:E; cbn [bind] in H; try discriminate H.
      apply sv_keypress_rel in E. apply IH in H. eauto.
  Qed.
  Lemma sv_device_rel i de ts d d' r : (de_type de = DevLed -> W) -> device_event fuel wr i de ts d = Ok (d', r) -> R d d'.
  Proof using R_refl R_trans R_emit R_led R_run R_motion R_active.
    unfold device_event. intros Hw H. destruct (nth_error (d_devs d) i) as [dv|] eqn:En; [|discriminate H].
    destruct (dv_data dv) as [p|] eqn:Ed.
    - assert (A : R d (set_d_active (Some p) d)) by (apply R_active; eauto).
      eapply R_trans; [exact A|]. set (d1 := set_d_active (Some p) d) in *. clearbody d1.
      destruct (de_type de).
      + destruct (run_kbd _ _ _ _ _) as [[d2 t1]| | |] eqn:E; cbn [bind] in H; try discriminate H.
        apply Ok_inj in H. injection H as <- _. eapply R_run; eauto.
      + apply Ok_inj in H. injection H as <- _. apply R_refl.
      + destruct (deref d1 p) as [k| | |] eqn:Ek; cbn [bind] in H; try discriminate H.
        destruct (s_active (k_scroll k)).
        * destruct (scroll_move (k_scroll k) (de_x de) (de_y de)) as [[s vs]| | |] eqn:Es; cbn [bind] in H; try discriminate H.
          pose proof (scroll_shape _ _ _ _ _ Es) as [Hs Hv]. apply Ok_inj in H. injection H as <- _.
          assert (A1 : R d1 (store p (set_k_scroll s k) d1)).
          { destruct s as [x y n b]. cbn [s_sens s_active] in Hs. destruct Hs as [-> ->]. apply R_motion; [exact Ek|]. eauto. }
          eapply R_trans; [exact A1|]. clear -Hv R_refl R_trans R_emit. revert Hv. generalize (store p (set_k_scroll s k) d1).
          induction vs as [|v vs IH]; cbn [fold_left]; intros e Hv; [apply R_refl|].
          inversion Hv as [|? ? H1 H2]; subst. eapply R_trans; [|apply IH, H2]. apply R_emit. destruct v; tauto.
        * apply Ok_inj in H. injection H as <- _. apply R_emit; exact Logic.I.
      + apply Ok_inj in H. injection H as <- _. apply R_emit; exact Logic.I.
      + match type of H with bind ?x _ = _ => destruct x as [[d2 t2]| | |] eqn:E1 end; cbn [bind] in H; try discriminate H.
        match type of H with bind ?x _ = _ => destruct x as [[d3 t3]| | |] eqn:E2 end; cbn [bind] in H; try discriminate H.
        apply Ok_inj in H. injection H as <- _. apply (R_trans _ d2).
        * destruct (de_x de =? 0)%Z; [apply Ok_inj in E1; injection E1 as <- _; apply R_refl|eapply sv_keypresses_rel; eauto].
        * destruct (de_y de =? 0)%Z; [apply Ok_inj in E2; injection E2 as <- _; apply R_refl|eapply sv_keypresses_rel; eauto].
      + apply Ok_inj in H. injection H as <- _. apply R_refl.
    - destruct (negb (dv_virtual dv) && _).
      + destruct (d_active d) as [p|]; [|apply Ok_inj in H; injection H as <- _; apply R_refl].
        destruct (de_type de); try (apply Ok_inj in H; injection H as <- _; apply R_refl);
        destruct (process_keypress _ _ _ _ _ _) as [[d2 t1]| | |] eqn:E; cbn [bind] in H; try discriminate H;
        apply Ok_inj in H; injection H as <- _; eapply sv_keypress_rel; eauto.
      + destruct (dv_virtual dv); [|apply Ok_inj in H; injection H as <- _; apply R_refl].
        destruct (de_type de); try (apply Ok_inj in H; injection H as <- _; apply R_refl).
        specialize (Hw eq_refl). apply Ok_inj in H. injection H as <- _. clear En.
        generalize (combine (seq 0 (length (d_devs d))) (d_devs d)) as l. intros l. revert d.
        induction l as [|[j x] l IH]; cbn [fold_left]; intros d; [apply R_refl|].
        eapply R_trans; [|apply IH]. destruct (dv_data x); [now apply R_led|apply R_refl].
  Qed.
  Lemma sv_taps_rel l : forall d, R d (fold_left (fun d c => tap c d) l d).
  Proof using R_refl R_trans R_tap.
    induction l as [|c l IH]; cbn [fold_left]; intros d; [apply R_refl|]. eapply R_trans; [apply R_tap|apply IH].
  Qed.
  Lemma sv_input_char_rel csz cp d d' ok : input_char csz cp d = (d', ok) -> R d d'.
  Proof using R_refl R_trans R_tap R_shift.
    unfold input_char. intros H.
    destruct (if Nat.eqb csz 1 then _ else None) as [x|] eqn:E.
    - injection H as <- _. destruct (Nat.eqb csz 1); [|discriminate E].
      destruct (parse_key_sequence _) as [[code mods]|].
      + injection E as <-. destruct (negb _); [apply R_shift|apply R_tap].
      + repeat (match type of E with (if ?b then _ else _) = _ => destruct b end; [injection E as <-; apply R_tap|]).
        discriminate E.
    - destruct (unicode_lookup_index cp); apply pair_equal_spec in H as [<- _]; [apply sv_taps_rel|apply R_refl].
  Qed.
  Lemma sv_input_rel f : forall buf timeout d d' ok, input f buf timeout d = Ok (d', ok) -> R d d'.
  Proof using R_refl R_trans R_tap R_shift R_emit.
    induction f as [|f IH]; cbn [input]; intros buf timeout d d' ok H; [discriminate H|].
    destruct (utf8_read_char buf) as [[csz cp]| | |]; cbn [bind] in H; try discriminate H.
    destruct csz as [|csz]; [apply Ok_inj in H; injection H as <- _; apply R_refl|].
    destruct (input_char (S csz) cp d) as [d1 ok1] eqn:E. apply sv_input_char_rel in E.
    destruct ok1; [|apply Ok_inj in H; injection H as <- _; exact E].
    apply IH in H. eapply R_trans; [exact E|]. eapply R_trans; [|exact H].
    destruct (timeout =? 0); [apply R_refl|apply R_emit; exact Logic.I].
  Qed.
  Lemma sv_play_rel os : forall d, R d (play os d).
  Proof using R_refl R_trans R_emit R_key.
    induction os as [|o r IH]; cbn [play]; intros d; [apply R_refl|].
    destruct o; try apply IH; (eapply R_trans; [|apply IH]); [apply R_key|apply R_emit; exact Logic.I].
  Qed.
End Parts.

(* no answer is sent *)
Definition hush (d d' : dstate) : Prop := answers (d_out d') = answers (d_out d).
Lemma hush_refl d : hush d d. Proof. reflexivity. Qed.
Lemma hush_trans a b c : hush a b -> hush b c -> hush a c. Proof. unfold hush. congruence. Qed.
Lemma hush_emit v d : match v with VReply _ _ => False | _ => True end -> hush d (vemit v d).
Proof. destruct v; intros H; try destruct H; reflexivity. Qed.
Lemma hush_key c s d : hush d (dsend_key c s d).
Proof.
  unfold dsend_key. repeat (match goal with |- hush _ (if ?b then _ else _) => destruct b end; try reflexivity).
Qed.
Lemma hush_clear d : hush d (clear_vkbd d).
Proof.
  unfold clear_vkbd. generalize (seq 0 256) as l. intros l. revert d.
  induction l as [|i l IH]; cbn [fold_left]; intros d; [reflexivity|].
  eapply hush_trans; [|apply IH]. unfold clear_key. destruct (d_ks d _); reflexivity.
Qed.
Lemma hush_reload texts grabs d d' : reload texts grabs d = Ok d' -> hush d d'.
Proof. intros H. apply reload_inv in H as (ents & _ & ->). eapply hush_trans; [|apply hush_clear]. reflexivity. Qed.
Lemma hush_emit' v d : match v with VKey _ _ | VReply _ _ => False | _ => True end -> hush d (vemit v d).
Proof. intros H. apply hush_emit. destruct v; auto. Qed.
Lemma hush_run fuel wr p ev d d' t : run_kbd fuel wr p ev d = Ok (d', t) -> hush d d'.
Proof.
  apply sv_run_keeps; try (intros; reflexivity).
  - apply hush_trans.
  - apply hush_emit'.
  - intros; apply hush_key.
Qed.
Lemma hush_listen wr con d d' : add_listener wr con d = Ok d' -> hush d d'.
Proof.
  apply sv_listener_keeps; try (intros; reflexivity).
  - apply hush_trans.
  - apply hush_emit'.
Qed.
Lemma hush_device fuel wr i de ts d d' r : device_event fuel wr i de ts d = Ok (d', r) -> hush d d'.
Proof.
  apply (sv_device_rel fuel wr hush True); try (intros; reflexivity); auto.
  - apply hush_trans.
  - intros v e H. apply hush_emit. destruct v; auto.
  - intros. eapply hush_run; eauto.
Qed.
Lemma hush_input f buf timeout d d' ok : input f buf timeout d = Ok (d', ok) -> hush d d'.
Proof.
  apply sv_input_rel; try (intros; reflexivity).
  - apply hush_trans.
  - intros v e H. apply hush_emit. destruct v; auto.
Qed.
Lemma hush_play os d : hush d (play os d).
Proof.
  apply sv_play_rel; try (intros; reflexivity).
  - apply hush_trans.
  - intros v e H. apply hush_emit. destruct v; auto.
  - intros; apply hush_key.
Qed.

Lemma limits m : allowed m <-> (4096 <=? i_sz m) = false /\ (1000000 <? i_timeout m) = false.
Proof. unfold allowed. rewrite N.leb_gt, N.ltb_ge. tauto. Qed.
Lemma client_owed wr con m texts grabs d d' : handle_client wr con m texts grabs d = Ok d' ->
  owed (EvClient con m texts grabs) con -> exists ok, answers (d_out d') = (con, ok) :: answers (d_out d).
Proof.
  unfold handle_client. intros H Ho.
  destruct (4096 <=? _) eqn:E1; [apply Ok_inj in H; subst; eexists; reflexivity|].
  destruct (1000000 <? _) eqn:E2; [apply Ok_inj in H; subst; eexists; reflexivity|].
  assert (Hl : i_type m <> IListen).
  { inversion Ho; subst; auto. exfalso. match goal with X : ~ allowed _ |- _ => apply X end. now apply limits. }
  assert (G : forall ok e, hush d e -> exists ok', answers (d_out (vemit (VReply con ok) e)) = (con, ok') :: answers (d_out d)).
  { intros ok e X. exists ok. cbn [vemit set_d_out d_out answers]. now rewrite X. }
  destruct (i_type m).
  - destruct (eval_all _ _) as [[ks ok]| | |]; cbn [bind] in H; try discriminate H. apply Ok_inj in H. subst. now apply G.
  - destruct (input _ _ _ _) as [[d1 ok]| | |] eqn:E; cbn [bind] in H; try discriminate H.
    apply Ok_inj in H. subst. apply G. eapply hush_input; eauto.
  - destruct (macro_parse _) as [[mac|]| | |]; cbn [bind] in H; try discriminate H; apply Ok_inj in H; subst; apply G.
    + apply hush_play.
    + reflexivity.
  - destruct (reload _ _ _) as [d1| | |] eqn:E; cbn [bind] in H; try discriminate H.
    apply Ok_inj in H. subst. apply G. eapply hush_reload; eauto.
  - congruence.
  - apply Ok_inj in H. subst. now apply G.
Qed.
Lemma owed_con ev con con' : owed ev con -> owed ev con' -> con = con'.
Proof. intros H H'. inversion H; subst; inversion H'; subst; reflexivity. Qed.
(* one call of the handler *)
Lemma handler_answers fuel wr ev ts d d' t : event_handler fuel wr ev ts d = Ok (d', t) ->
  (exists con ok, owed ev con /\ answers (d_out d') = (con, ok) :: answers (d_out d)) \/
  (forall con, ~ owed ev con) /\ hush d d'.
Proof.
  unfold event_handler. intros H.
  set (t0 := Z.max 0 (d_timeout d - (ts - d_last d))) in *.
  change (answers (d_out d)) with (answers (d_out (set_d_times ts t0 d))).
  change (hush d d') with (hush (set_d_times ts t0 d) d').
  set (d1 := set_d_times ts t0 d) in *. clearbody d1.
  destruct ev as [|i de|i grab|i|con m texts grabs].
  - right. split; [intros con X; inversion X|].
    destruct (d_active d1) as [p|]; [|apply Ok_inj in H; injection H as <- _; reflexivity].
    destruct (run_kbd _ _ _ _ _) as [[d2 t2]| | |] eqn:E; cbn [bind] in H; try discriminate H.
    apply Ok_inj in H. injection H as <- _. apply hush_run in E. exact E.
  - right. split; [intros con X; inversion X|].
    destruct (device_event _ _ _ _ _ _) as [[d2 r]| | |] eqn:E; cbn [bind] in H; try discriminate H.
    apply Ok_inj in H. injection H as <- _. apply hush_device in E. exact E.
  - right. split; [intros con X; inversion X|].
    destruct (nth_error (d_devs d1) i) as [dv|]; [|discriminate H]. cbn [bind] in H.
    apply Ok_inj in H. injection H as <- _. reflexivity.
  - right. split; [intros con X; inversion X|].
    cbn [bind] in H. apply Ok_inj in H. injection H as <- _. reflexivity.
  - destruct (handle_client _ _ _ _ _ _) as [d2| | |] eqn:E; cbn [bind] in H; try discriminate H.
    apply Ok_inj in H. injection H as <- _.
    assert (D : {owed (EvClient con m texts grabs) con} + {allowed m /\ i_type m = IListen}).
    { destruct (4096 <=? i_sz m) eqn:E1; [left; constructor 1; rewrite limits; intuition congruence|].
      destruct (1000000 <? i_timeout m) eqn:E2; [left; constructor 1; rewrite limits; intuition congruence|].
      destruct (i_type m) eqn:Et; try (left; constructor 2; rewrite Et; discriminate). right. rewrite limits. auto. }
    destruct D as [Ho|[Ha Ht]].
    + left. destruct (client_owed _ _ _ _ _ _ _ E Ho) as [ok X]. exists con, ok. split; [exact Ho|exact X].
    + right. split; [intros c X; inversion X; subst; auto|].
      unfold handle_client in E. apply limits in Ha as [A B]. rewrite A, B, Ht in E. cbn iota in E.
      apply hush_listen in E. exact E.
Qed.

(* the whole loop *)
Definition settled (l : lstate) : Prop := requests (lp_calls l) (map fst (answers (d_out (lp_d l)))).
Lemma settled_same l l' : settled l -> lp_calls l' = lp_calls l -> d_out (lp_d l') = d_out (lp_d l) -> settled l'.
Proof. unfold settled. now intros H -> ->. Qed.
Lemma call_settled fuel wr ev ts l l' : call fuel wr ev ts l = Ok l' -> settled l -> settled l'.
Proof.
  unfold call, settled. intros H S0. destruct (event_handler _ _ _ _ _) as [[d t]| | |] eqn:E; cbn [bind] in H; try discriminate H.
  apply Ok_inj in H. subst l'. cbn [lp_d lp_calls]. apply handler_answers in E as [(con & ok & Ho & ->)|[Hn X]].
  - cbn [map fst]. now constructor.
  - rewrite X. now constructor 3.
Qed.
Lemma calls_settled fuel wr evs : forall ts l l', calls fuel wr evs ts l = Ok l' -> settled l -> settled l'.
Proof.
  induction evs as [|e r IH]; cbn [calls]; intros ts l l' H Hp; [apply Ok_inj in H; now subst|].
  destruct (call _ _ _ _ _) as [l1| | |] eqn:E; cbn [bind] in H; try discriminate H.
  apply call_settled in E; eauto.
Qed.
Lemma add_settled fuel wr devs : forall ts l l', add_devices fuel wr devs ts l = Ok l' -> settled l -> settled l'.
Proof.
  induction devs as [|[dv g] r IH]; cbn [add_devices]; intros ts l l' H Hp; [apply Ok_inj in H; now subst|].
  destruct (Nat.ltb _ 64); [|discriminate H].
  destruct (call _ _ _ _ _) as [l1| | |] eqn:E; cbn [bind] in H; try discriminate H.
  apply call_settled in E; [|eapply settled_same; [exact Hp|reflexivity|reflexivity]]. eauto.
Qed.
Lemma read_settled fuel wr i rs : forall ts l l', read_device fuel wr i rs ts l = Ok l' -> settled l -> settled l'.
Proof.
  induction rs as [|r rs IH]; cbn [read_device]; intros ts l l' H Hp; [apply Ok_inj in H; now subst|].
  destruct (nth_error (d_devs (lp_d l)) i) as [dv|] eqn:En; [|discriminate H].
  destruct (device_read_event _ _ _) as [[de ret]| | |]; cbn [bind] in H; try discriminate H.
  destruct ret; cbn [negb] in H; [|apply Ok_inj in H; subst; eapply settled_same; [exact Hp|reflexivity|reflexivity]].
  destruct (de_type de).
  6:{ destruct (call _ _ _ _ _) as [l2| | |] eqn:E; cbn [bind] in H; try discriminate H.
      apply Ok_inj in H. subst. apply call_settled in E; [|eapply settled_same; [exact Hp|reflexivity|reflexivity]].
      eapply settled_same; [exact E|reflexivity|reflexivity]. }
  all: destruct (panic_check _ _ _) as [s die]; destruct die;
    [apply Ok_inj in H; subst; eapply settled_same; [exact Hp|reflexivity|reflexivity]|];
    destruct (call _ _ _ _ _) as [l2| | |] eqn:E; cbn [bind] in H; try discriminate H;
    apply call_settled in E; [eapply IH; eauto|eapply settled_same; [exact Hp|reflexivity|reflexivity]].
Qed.
Lemma reads_settled fuel wr reads is : forall ts l l', read_devices fuel wr reads is ts l = Ok l' -> settled l -> settled l'.
Proof.
  induction is as [|i r IH]; cbn [read_devices]; intros ts l l' H Hp; [apply Ok_inj in H; now subst|].
  destruct (lp_dead l); [apply Ok_inj in H; now subst|].
  destruct (read_device _ _ _ _ _ _) as [l1| | |] eqn:E; cbn [bind] in H; try discriminate H.
  apply read_settled in E; eauto.
Qed.
Lemma runs_settled fuel wr l : runs fuel wr l -> settled l.
Proof.
  induction 1 as [texts devs grabs ts l Hf H|r l l' Hr IH Hf H].
  - unfold start in H. destruct (reload _ _ _) as [d| | |] eqn:Er; cbn [bind] in H; try discriminate H.
    destruct (calls _ _ _ _ _) as [l1| | |] eqn:E; cbn [bind] in H; try discriminate H.
    apply Ok_inj in H. subst. apply calls_settled in E; [eapply settled_same; [exact E|reflexivity|reflexivity]|].
    unfold settled. cbn [lp_d lp_calls]. apply hush_reload in Er. unfold hush in Er.
    change (d_out (set_d_devs devs d)) with (d_out d). rewrite Er. constructor.
  - apply round_cases in H as [[-> _]|(_ & l1 & l2 & E1 & E2 & H)]; [exact IH|].
    assert (P1 : settled l1).
    { destruct (andb _ _); [apply call_settled in E1; auto|apply Ok_inj in E1; subst; exact IH]. }
    apply reads_settled in E2; [|exact P1].
    destruct H as [[_ ->]|(_ & l3 & l4 & E3 & E4 & ->)]; [exact E2|].
    apply calls_settled in E3; [|exact E2]. apply add_settled in E4; [|exact E3].
    eapply settled_same; [exact E4|reflexivity|reflexivity].
Qed.

(* the bind request *)
Lemma eval_all_each exp ks : forall r, eval_all ks exp = Ok r ->
  exists rs, Forall2 (fun k x => kbd_eval k exp = Ok x) ks rs /\ fst r = map fst rs /\ snd r = existsb snd rs.
Proof.
  induction ks as [|k ks IH]; cbn [eval_all]; intros r H.
  - apply Ok_inj in H. subst. exists []. repeat split. constructor.
  - destruct (kbd_eval k exp) as [[k1 ok]| | |] eqn:E; cbn [bind] in H; try discriminate H.
    destruct (eval_all ks exp) as [[r1 ok']| | |] eqn:E'; cbn [bind] in H; try discriminate H.
    apply Ok_inj in H. subst r. destruct (IH _ eq_refl) as (rs & F & A & B). cbn [fst snd] in A, B.
    exists ((k1, ok) :: rs). cbn [map existsb fst snd]. rewrite A, B. repeat split. now constructor.
Qed.
Lemma eval_all_total exp ks : (forall k, In k ks -> exists x, kbd_eval k exp = Ok x) -> exists r, eval_all ks exp = Ok r.
Proof.
  induction ks as [|k ks IH]; cbn [eval_all]; intros H; [eauto|].
  destruct (H k (or_introl eq_refl)) as [[k1 ok] ->]. cbn [bind].
  destruct IH as [[r1 ok'] ->]; [intros; apply H; now right|]. cbn [bind]. eauto.
Qed.
