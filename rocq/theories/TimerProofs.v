(* Timers: scheduled ones are kept, and deadlines in the future have one. *)
From Verif Require Import Base Lib Keys Types MacroExec Kbd Config Steps Hist SpecTrace SpecMods SpecLookup
  SpecHist SpecActions SpecKept TraceProofs ModsProofs LookupProofs Engine SpecWf Wf ActProofs StepProofs OneProofs
  CacheProofs Inv ClassInv ParseWf WfHist KeptProofs.

Definition tgrow (k k' : kbd) : Prop := exists new, k_timeouts k' = k_timeouts k ++ new.
Lemma tgrow_same k k' : k_timeouts k' = k_timeouts k -> tgrow k k'.
Proof. intros H. exists []. now rewrite app_nil_r. Qed.
Lemma tgrow_refl k : tgrow k k. Proof. now apply tgrow_same. Qed.
Lemma tgrow_trans a b c : tgrow a b -> tgrow b c -> tgrow a c.
Proof. intros [x H] [y G]. exists (x ++ y). now rewrite G, H, app_assoc. Qed.
Ltac tg := norm_states; first [apply tgrow_same; kcbn; reflexivity | eexists; kcbn; reflexivity].

Lemma setlayout_tgrow k i k' : setlayout k i = Ok k' -> tgrow k k'.
Proof.
  unfold setlayout. intros H. bstep H u Eu. bstep H k1 E1. apply Ok_inj in H. subst k'.
  assert (G : forall l k, tgrow k (fold_left drop_layout l k)).
  { clear. induction l; cbn [fold_left]; intros; [apply tgrow_refl|].
    eapply tgrow_trans; [|apply IHl]. unfold drop_layout. destruct (is_layout _); apply tgrow_same; reflexivity. }
  eapply tgrow_trans; [|eapply (tgrow_trans _ _ _ (G (seq 1 (nlayers k1 - 1)) k1))].
  - tg.
  - destruct (Nat.eqb i 0); apply tgrow_same; reflexivity.
Qed.
Lemma do_swap_tgrow k dl i k' : do_swap k dl i = Ok k' -> tgrow k k'.
Proof.
  intros H. unfold do_swap in H. bstep H u Eu. bstep H u2 Eu2.
  destruct (l_toggled (k_ls k dl)); [|destruct (negb _); [|destruct (swap_slot _ _ _ _)]].
  - bstep H k1 E1. bstep H k3 E3. apply Ok_inj in H. subst k'. tg.
  - bstep H k1 E1. bstep H k3 E3. apply Ok_inj in H. subst k'. tg.
  - bstep H k1 E1. bstep H k3 E3. apply Ok_inj in H. subst k'. tg.
  - apply Ok_inj in H. subst. apply tgrow_refl.
Qed.
Lemma pd_tgrow : forall fuel k code d dl pressed time k',
  process_descriptor fuel k code d dl pressed time = Ok k' -> tgrow k k'.
Proof.
  induction fuel as [|fuel IH]; intros k code d dl pressed time k' H; [discriminate|].
  cbn [process_descriptor] in H. bstep H k0 E0. bstep H k1 E1. apply Ok_inj in H. subst k'.
  apply (tgrow_trans k k0).
  { destruct pressed; [|apply Ok_inj in E0; subst; apply tgrow_refl].
    apply pre_macro_only in E0 as [l [s [o ->]]]. apply tgrow_same; reflexivity. }
  apply (tgrow_trans k0 k1).
  2: { destruct pressed; apply tgrow_same; reflexivity. }
  clear E0 k. destruct d; try (apply Ok_inj in E1; subst; apply tgrow_same; reflexivity).
  - unfold pd_key in E1. bstep E1 k2 E2. apply Ok_inj in E1. subst k1.
    apply (tgrow_trans k0 k2); [|destruct (_ || _); apply tgrow_same; reflexivity].
    destruct pressed.
    + destruct (k_ks k0 code0); tg.
    + apply Ok_inj in E2. subst. tg.
  - unfold pd_oneshot in E1. destruct pressed; [|destruct (k_latch k0)].
    + bstep E1 k2 E2. apply Ok_inj in E1. subst. tg.
    + bstep E1 u Eu. destruct (_ =? 0)%Z; [apply Ok_inj in E1; subst|]; tg.
    + bstep E1 k2 E2. apply Ok_inj in E1. subst. tg.
  - unfold pd_oneshot in E1. destruct pressed; [|destruct (k_latch k0)].
    + bstep E1 k2 E2. apply Ok_inj in E1. subst. tg.
    + bstep E1 u Eu. destruct (_ =? 0)%Z; [apply Ok_inj in E1; subst|]; tg.
    + bstep E1 k2 E2. apply Ok_inj in E1. subst. tg.
  - unfold pd_layer in E1. bstep E1 k2 E2. apply Ok_inj in E1. subst k1. destruct pressed; tg.
  - unfold pd_swap in E1. destruct pressed.
    + bstep E1 k2 E2. apply Ok_inj in E1. subst. now apply do_swap_tgrow in E2.
    + apply Ok_inj in E1. subst. tg.
  - bstep E1 mm Em. unfold pd_swap in E1. destruct pressed.
    + bstep E1 k2 E2. apply Ok_inj in E1. subst. apply do_swap_tgrow in E2.
      eapply tgrow_trans; [exact E2|]. tg.
    + apply Ok_inj in E1. subst. destruct mm as [|[[] dt] [|]]; tg.
  - unfold pd_layer in E1. bstep E1 k2 E2. apply Ok_inj in E1. subst k1. destruct pressed; tg.
  - destruct pressed; [now apply setlayout_tgrow in E1|apply Ok_inj in E1; subst; apply tgrow_refl].
  - destruct pressed; [|apply Ok_inj in E1; subst; apply tgrow_refl]. tg.
  - destruct pressed; [|apply Ok_inj in E1; subst; apply tgrow_refl].
    bstep E1 mm Em. bstep E1 k2 E2. apply Ok_inj in E1. subst. tg.
  - bstep E1 ac Ea. destruct pressed.
    + bstep E1 k2 E2. apply Ok_inj in E1. subst. tg.
    + bstep E1 k2 E2. apply (tgrow_trans k0 k2); [clear E1; tg|].
      apply (tgrow_trans k2 (update_mods false k2 None 0)); [clear E1; tg|].
      set (k3 := update_mods false k2 None 0) in *. clearbody k3.
      destruct (_ && _) in E1; [|apply Ok_inj in E1; subst; apply tgrow_refl].
      assert (G : forall k1, (k4 <- process_descriptor fuel k3 code ac dl true time ;;
                   process_descriptor fuel k4 code ac dl false time) = Ok k1 -> tgrow k3 k1).
      { clear E1. intros k5 E5. bstep E5 k4 E4. eapply tgrow_trans; eapply IH; eauto. }
      destruct ac; try (apply G; exact E1).
      bstep E1 mm Em. apply Ok_inj in E1. subst. tg.
  - destruct pressed; [|apply Ok_inj in E1; subst; apply tgrow_refl].
    bstep E1 ac Ea. unfold set_pending in E1. tg.
  - destruct pressed; [|apply Ok_inj in E1; subst; apply tgrow_refl].
    bstep E1 ac Ea. unfold set_pending in E1. tg.
  - destruct pressed; [|apply Ok_inj in E1; subst; apply tgrow_refl].
    bstep E1 ac Ea. bstep E1 k2 E2. apply Ok_inj in E1. subst.
    apply (tgrow_trans k0 k2); [eapply IH; eauto|]. unfold cache_replace_d. destruct (cache_find _ _ _); tg.
  - unfold pd_toggle in E1. destruct pressed; [|apply Ok_inj in E1; subst; apply tgrow_refl].
    bstep E1 u Eu. bstep E1 k2 E2. destruct (l_toggled _); tg.
  - unfold pd_toggle in E1. destruct pressed; [|apply Ok_inj in E1; subst; apply tgrow_refl].
    bstep E1 u Eu. bstep E1 k2 E2. destruct (l_toggled _); tg.
  - unfold pd_macro in E1. destruct pressed; [|apply Ok_inj in E1; subst; apply tgrow_refl].
    bstep E1 mm Em. bstep E1 k2 E2. tg.
  - unfold pd_macro in E1. destruct pressed; [|apply Ok_inj in E1; subst; apply tgrow_refl].
    bstep E1 mm Em. bstep E1 k2 E2. tg.
  - destruct pressed; [|apply Ok_inj in E1; subst; apply tgrow_refl].
    bstep E1 cm Em. bstep E1 k2 E2. apply Ok_inj in E1. subst. tg.
  - destruct pressed; [|apply Ok_inj in E1; subst; apply tgrow_refl].
    bstep E1 ac Ea. bstep E1 ac2 Ea2. unfold set_pending in E1. tg.
Qed.


Lemma expire_tgrow k time k' : expire_oneshot k time = Ok k' -> tgrow k k'.
Proof.
  unfold expire_oneshot. intros H. destruct (_ && _); [|apply Ok_inj in H; subst; apply tgrow_refl].
  bstep H k1 E. apply Ok_inj in H. subst. tg.
Qed.
Lemma run_macro_tgrow k code time k' : run_active_macro k code time = Ok k' -> tgrow k k'.
Proof.
  unfold run_active_macro. intros H. destruct (k_amacro k); [|apply Ok_inj in H; subst; apply tgrow_refl].
  destruct (negb _); [apply Ok_inj in H; subst; tg|].
  destruct (_ <=? _)%Z; [|apply Ok_inj in H; subst; apply tgrow_refl].
  bstep H mm Em. tg.
Qed.
Lemma handle_key_tgrow k code pressed time k' : handle_key k code pressed time = Ok k' -> tgrow k k'.
Proof.
  unfold handle_key. intros H. destruct (code =? 0)%N; [apply Ok_inj in H; subst; apply tgrow_refl|].
  destruct pressed.
  - destruct (cache_get k code); [apply Ok_inj in H; subst; apply tgrow_refl|].
    destruct (lookup_descriptor k code) as [d dl].
    destruct (cache_set _ _ _) as [k1|] eqn:E; [|apply Ok_inj in H; subst; apply tgrow_refl].
    apply cache_set_spec in E as [i [e [-> _]]]. apply pd_tgrow in H. exact H.
  - destruct (cache_get k code); [|apply Ok_inj in H; subst; apply tgrow_refl].
    destruct (cache_set _ _ _) as [k1|] eqn:E; [|apply Ok_inj in H; subst; apply tgrow_refl].
    apply cache_set_spec in E as [i [e [-> _]]]. apply pd_tgrow in H. exact H.
Qed.
Lemma rest_tgrow k code pressed time k' : rest_step k code pressed time = Ok k' -> tgrow k k'.
Proof.
  unfold rest_step. intros H. bstep H k3 E3. bstep H k4 E4.
  eapply tgrow_trans; [eapply expire_tgrow; eauto|]. eapply tgrow_trans; [eapply run_macro_tgrow; eauto|].
  eapply handle_key_tgrow; eauto.
Qed.

(* every deadline after time T has a timer *)
Definition covered (T : Z) (k : kbd) : Prop :=
  (p_code (k_pend k) <> 0%N -> (T < p_expire (k_pend k))%Z -> In (p_expire (k_pend k)) (k_timeouts k))
  /\ (k_oneshot_to k <> 0%Z -> (T < k_oneshot_to k)%Z -> In (k_oneshot_to k) (k_timeouts k))
  /\ (k_amacro k <> None -> (T < k_macro_to k)%Z -> In (k_macro_to k) (k_timeouts k)).
Section Cov.
Variable T : Z.
Definition cov (k k' : kbd) : Prop := covered T k -> covered T k'.
Lemma cov_same k k' : k_timeouts k' = k_timeouts k -> k_pend k' = k_pend k -> k_oneshot_to k' = k_oneshot_to k ->
  k_amacro k' = k_amacro k -> k_macro_to k' = k_macro_to k -> cov k k'.
Proof. intros E1 E2 E3 E4 E5. unfold cov, covered. now rewrite E1, E2, E3, E4, E5. Qed.
Lemma cov_refl k : cov k k. Proof. intros H; exact H. Qed.
Lemma cov_trans a b c : cov a b -> cov b c -> cov a c.
Proof. unfold cov. auto. Qed.
Ltac cv := norm_states; intros [A1 [A2 A3]]; unfold covered; kcbn; cbn [p_expire p_code] in *;
  (split; [|split]); try assumption; intros X Y; try congruence;
  try (apply in_or_app; first [left; auto; fail|right; now left]); auto.

Lemma setlayout_cov k i k' : setlayout k i = Ok k' -> cov k k'.
Proof.
  unfold setlayout. intros H. bstep H u Eu. bstep H k1 E1. apply Ok_inj in H. subst k'.
  assert (G : forall l k, cov k (fold_left drop_layout l k)).
  { clear. induction l; cbn [fold_left]; intros; [apply cov_refl|].
    eapply cov_trans; [|apply IHl]. unfold drop_layout. destruct (is_layout _); apply cov_same; reflexivity. }
  eapply cov_trans; [|eapply (cov_trans _ _ _ (G (seq 1 (nlayers k1 - 1)) k1))].
  - cv.
  - destruct (Nat.eqb i 0); apply cov_same; reflexivity.
Qed.
Lemma do_swap_cov k dl i k' : do_swap k dl i = Ok k' -> cov k k'.
Proof.
  intros H. unfold do_swap in H. bstep H u Eu. bstep H u2 Eu2.
  destruct (l_toggled (k_ls k dl)); [|destruct (negb _); [|destruct (swap_slot _ _ _ _)]].
  - bstep H k1 E1. bstep H k3 E3. apply Ok_inj in H. subst k'. cv.
  - bstep H k1 E1. bstep H k3 E3. apply Ok_inj in H. subst k'. cv.
  - bstep H k1 E1. bstep H k3 E3. apply Ok_inj in H. subst k'. cv.
  - apply Ok_inj in H. subst. apply cov_refl.
Qed.
Lemma pd_cov : forall fuel k code d dl pressed time k',
  process_descriptor fuel k code d dl pressed time = Ok k' -> cov k k'.
Proof.
  induction fuel as [|fuel IH]; intros k code d dl pressed time k' H; [discriminate|].
  cbn [process_descriptor] in H. bstep H k0 E0. bstep H k1 E1. apply Ok_inj in H. subst k'.
  apply (cov_trans k k0).
  { destruct pressed; [|apply Ok_inj in E0; subst; apply cov_refl].
    apply pre_macro_only in E0 as [l [s [o ->]]]. apply cov_same; reflexivity. }
  apply (cov_trans k0 k1).
  2: { destruct pressed; apply cov_same; reflexivity. }
  clear E0 k. destruct d; try (apply Ok_inj in E1; subst; apply cov_same; reflexivity).
  - unfold pd_key in E1. bstep E1 k2 E2. apply Ok_inj in E1. subst k1.
    apply (cov_trans k0 k2); [|destruct (_ || _); apply cov_same; reflexivity].
    destruct pressed.
    + destruct (k_ks k0 code0); cv.
    + apply Ok_inj in E2. subst. cv.
  - unfold pd_oneshot in E1. destruct pressed; [|destruct (k_latch k0)].
    + bstep E1 k2 E2. apply Ok_inj in E1. subst. cv.
    + bstep E1 u Eu. destruct (_ =? 0)%Z; [apply Ok_inj in E1; subst|]; cv.
    + bstep E1 k2 E2. apply Ok_inj in E1. subst. cv.
  - unfold pd_oneshot in E1. destruct pressed; [|destruct (k_latch k0)].
    + bstep E1 k2 E2. apply Ok_inj in E1. subst. cv.
    + bstep E1 u Eu. destruct (_ =? 0)%Z; [apply Ok_inj in E1; subst|]; cv.
    + bstep E1 k2 E2. apply Ok_inj in E1. subst. cv.
  - unfold pd_layer in E1. bstep E1 k2 E2. apply Ok_inj in E1. subst k1. destruct pressed; cv.
  - unfold pd_swap in E1. destruct pressed.
    + bstep E1 k2 E2. apply Ok_inj in E1. subst. now apply do_swap_cov in E2.
    + apply Ok_inj in E1. subst. cv.
  - bstep E1 mm Em. unfold pd_swap in E1. destruct pressed.
    + bstep E1 k2 E2. apply Ok_inj in E1. subst. apply do_swap_cov in E2.
      eapply cov_trans; [exact E2|]. cv.
    + apply Ok_inj in E1. subst. destruct mm as [|[[] dt] [|]]; cv.
  - unfold pd_layer in E1. bstep E1 k2 E2. apply Ok_inj in E1. subst k1. destruct pressed; cv.
  - destruct pressed; [now apply setlayout_cov in E1|apply Ok_inj in E1; subst; apply cov_refl].
  - destruct pressed; [|apply Ok_inj in E1; subst; apply cov_refl]. cv.
  - destruct pressed; [|apply Ok_inj in E1; subst; apply cov_refl].
    bstep E1 mm Em. bstep E1 k2 E2. apply Ok_inj in E1. subst. cv.
  - bstep E1 ac Ea. destruct pressed.
    + bstep E1 k2 E2. apply Ok_inj in E1. subst. cv.
    + bstep E1 k2 E2. apply (cov_trans k0 k2); [clear E1; cv|].
      apply (cov_trans k2 (update_mods false k2 None 0)); [clear E1; cv|].
      set (k3 := update_mods false k2 None 0) in *. clearbody k3.
      destruct (_ && _) in E1; [|apply Ok_inj in E1; subst; apply cov_refl].
      assert (G : forall k1, (k4 <- process_descriptor fuel k3 code ac dl true time ;;
                   process_descriptor fuel k4 code ac dl false time) = Ok k1 -> cov k3 k1).
      { clear E1. intros k5 E5. bstep E5 k4 E4. eapply cov_trans; eapply IH; eauto. }
      destruct ac; try (apply G; exact E1).
      bstep E1 mm Em. apply Ok_inj in E1. subst. cv.
  - destruct pressed; [|apply Ok_inj in E1; subst; apply cov_refl].
    bstep E1 ac Ea. unfold set_pending in E1. cv.
  - destruct pressed; [|apply Ok_inj in E1; subst; apply cov_refl].
    bstep E1 ac Ea. unfold set_pending in E1. cv.
  - destruct pressed; [|apply Ok_inj in E1; subst; apply cov_refl].
    bstep E1 ac Ea. bstep E1 k2 E2. apply Ok_inj in E1. subst.
    apply (cov_trans k0 k2); [eapply IH; eauto|]. unfold cache_replace_d. destruct (cache_find _ _ _); cv.
  - unfold pd_toggle in E1. destruct pressed; [|apply Ok_inj in E1; subst; apply cov_refl].
    bstep E1 u Eu. bstep E1 k2 E2. destruct (l_toggled _); cv.
  - unfold pd_toggle in E1. destruct pressed; [|apply Ok_inj in E1; subst; apply cov_refl].
    bstep E1 u Eu. bstep E1 k2 E2. destruct (l_toggled _); cv.
  - unfold pd_macro in E1. destruct pressed; [|apply Ok_inj in E1; subst; apply cov_refl].
    bstep E1 mm Em. bstep E1 k2 E2. cv.
  - unfold pd_macro in E1. destruct pressed; [|apply Ok_inj in E1; subst; apply cov_refl].
    bstep E1 mm Em. bstep E1 k2 E2. cv.
  - destruct pressed; [|apply Ok_inj in E1; subst; apply cov_refl].
    bstep E1 cm Em. bstep E1 k2 E2. apply Ok_inj in E1. subst. cv.
  - destruct pressed; [|apply Ok_inj in E1; subst; apply cov_refl].
    bstep E1 ac Ea. bstep E1 ac2 Ea2. unfold set_pending in E1. cv.
Qed.


Lemma expire_cov k time k' : expire_oneshot k time = Ok k' -> cov k k'.
Proof.
  unfold expire_oneshot. intros H. destruct (_ && _); [|apply Ok_inj in H; subst; apply cov_refl].
  bstep H k1 E. apply Ok_inj in H. subst. cv.
Qed.
Lemma run_macro_cov k code time k' : run_active_macro k code time = Ok k' -> cov k k'.
Proof.
  unfold run_active_macro. intros H. destruct (k_amacro k) eqn:Em; [|apply Ok_inj in H; subst; apply cov_refl].
  destruct (negb _); [apply Ok_inj in H; subst; cv|].
  destruct (_ <=? _)%Z; [|apply Ok_inj in H; subst; apply cov_refl].
  bstep H mm Emm. cv.
Qed.
Lemma handle_key_cov k code pressed time k' : handle_key k code pressed time = Ok k' -> cov k k'.
Proof.
  unfold handle_key. intros H. destruct (code =? 0)%N; [apply Ok_inj in H; subst; apply cov_refl|].
  destruct pressed.
  - destruct (cache_get k code); [apply Ok_inj in H; subst; apply cov_refl|].
    destruct (lookup_descriptor k code) as [d dl].
    destruct (cache_set _ _ _) as [k1|] eqn:E; [|apply Ok_inj in H; subst; apply cov_refl].
    apply cache_set_spec in E as [i [e [-> _]]]. apply pd_cov in H. exact H.
  - destruct (cache_get k code); [|apply Ok_inj in H; subst; apply cov_refl].
    destruct (cache_set _ _ _) as [k1|] eqn:E; [|apply Ok_inj in H; subst; apply cov_refl].
    apply cache_set_spec in E as [i [e [-> _]]]. apply pd_cov in H. exact H.
Qed.
Lemma rest_cov k code pressed time k' : rest_step k code pressed time = Ok k' -> cov k k'.
Proof.
  unfold rest_step. intros H. bstep H k3 E3. bstep H k4 E4.
  eapply cov_trans; [eapply expire_cov; eauto|]. eapply cov_trans; [eapply run_macro_cov; eauto|].
  eapply handle_key_cov; eauto.
Qed.
End Cov.
