(* Every batch of events is processed to the end: the recursion of process_event,
   kbd_process_events, handle_chord and handle_pending_key is well founded (C03). *)
From Verif Require Import Base Lib Keys Types MacroExec Kbd Engine ModsProofs ActProofs Wf WfEvents OneProofs
  CacheProofs Inv ClassInv.

(* ---- actions terminate ------------------------------------------------------------ *)
Definition fin {A} (r : res A) : Prop := r <> NoFuel.
Lemma fin_Ok {A} (a : A) : fin (Ok a). Proof. discriminate. Qed.
Lemma fin_Crash {A} c : fin (@Crash A c). Proof. discriminate. Qed.
Lemma fin_UB {A} : fin (@UB A). Proof. discriminate. Qed.
Lemma fin_bind {A B} (e : res A) (f : A -> res B) :
  fin e -> (forall a, e = Ok a -> fin (f a)) -> fin (bind e f).
Proof. unfold fin. destruct e; cbn [bind]; intros; auto; discriminate. Qed.
Global Hint Resolve fin_Ok fin_Crash fin_UB : core.

Lemma fin_chk i : fin (chk_layer i). Proof. unfold chk_layer. destruct (Nat.ltb _ _); auto. Qed.
Lemma fin_macro k i : fin (macro_at k i). Proof. unfold macro_at. destruct (Nat.ltb _ _); auto. Qed.
Lemma fin_cmd k i : fin (cmd_at k i). Proof. unfold cmd_at. destruct (Nat.ltb _ _); auto. Qed.
Lemma fin_desc k i : fin (desc_at k i). Proof. unfold desc_at. destruct (N.ltb _ _); auto. Qed.
Lemma fin_schedule k t : fin (schedule_timeout k t).
Proof. unfold schedule_timeout. destruct (Nat.ltb _ _); auto. Qed.
Lemma fin_deactivate k i : fin (deactivate_layer k i).
Proof. unfold deactivate_layer. apply fin_bind; [apply fin_chk|]. intros _ _. destruct (_ =? 0)%N; auto. Qed.
Lemma fin_activate k code i : fin (activate_layer k code i).
Proof. unfold activate_layer. apply fin_bind; [apply fin_chk|]. auto. Qed.
Lemma fin_drop i : forall n k, fin (drop_oneshots n k i).
Proof. induction n; intros k; cbn [drop_oneshots]; auto. apply fin_bind; [apply fin_deactivate|]. auto. Qed.
Lemma fin_clear_layers : forall l k, fin (clear_oneshot_layers l k).
Proof. induction l; intros k; cbn [clear_oneshot_layers]; auto. apply fin_bind; [apply fin_drop|]. auto. Qed.
Lemma fin_clear_oneshot k : fin (clear_oneshot k).
Proof. unfold clear_oneshot. apply fin_bind; [apply fin_clear_layers|]. auto. Qed.
Lemma fin_clear_toggled : forall l k, fin (clear_toggled l k).
Proof.
  induction l; intros k; cbn [clear_toggled]; auto.
  apply fin_bind; [|auto]. destruct (_ && _); auto. apply fin_deactivate.
Qed.
Lemma fin_clear k : fin (clear k).
Proof.
  unfold clear. apply fin_bind; [apply fin_clear_oneshot|]. intros k1 _.
  apply fin_bind; [apply fin_clear_toggled|]. auto.
Qed.
Global Hint Resolve fin_chk fin_macro fin_cmd fin_desc fin_schedule fin_deactivate fin_activate
  fin_clear_oneshot fin_clear : core.
Ltac fb := apply fin_bind; [auto|intros ? ?].

Lemma fin_setlayout k i : fin (setlayout k i).
Proof. unfold setlayout. fb. fb. auto. Qed.
Lemma fin_swap k dl i : fin (do_swap k dl i).
Proof.
  unfold do_swap. fb. fb. destruct (l_toggled _); [fb; fb; auto|]. destruct (negb _); [fb; fb; auto|].
  destruct (swap_slot _ _ _ _); auto. fb. fb. auto.
Qed.
Lemma fin_pre d pressed dl k : fin (pre_macro d pressed dl k).
Proof. unfold pre_macro. destruct pressed; auto. destruct d; auto; fb; auto. Qed.
Lemma fin_pending k code dl e b a1 a2 : fin (set_pending k code dl e b a1 a2).
Proof. unfold set_pending. auto. Qed.
Lemma fin_key k c m dl pressed time : fin (pd_key k c m dl pressed time).
Proof. unfold pd_key. apply fin_bind; auto. destruct pressed; auto. Qed.
Lemma fin_layer k c i pressed : fin (pd_layer k c i pressed).
Proof. unfold pd_layer. apply fin_bind; auto. destruct pressed; auto. Qed.
Lemma fin_oneshot k c i dl pressed time : fin (pd_oneshot k c i dl pressed time).
Proof.
  unfold pd_oneshot. destruct pressed; [fb; auto|]. destruct (k_latch k).
  - fb. destruct (_ =? 0)%Z; auto.
  - fb. auto.
Qed.
Lemma fin_pmacro k m t r dl pressed time : fin (pd_macro k m t r dl pressed time).
Proof. unfold pd_macro. destruct pressed; auto. fb. fb. auto. Qed.
Lemma fin_toggle k code i pressed : fin (pd_toggle k code i pressed).
Proof. unfold pd_toggle. destruct pressed; auto. fb. apply fin_bind; auto. destruct (l_toggled _); auto. Qed.
Lemma fin_pswap k i dl mm pressed : fin (pd_swap k i dl mm pressed).
Proof. unfold pd_swap. destruct pressed; auto. apply fin_bind; auto. apply fin_swap. Qed.
Global Hint Resolve fin_setlayout fin_swap fin_pre fin_pending fin_key fin_layer fin_oneshot fin_pmacro
  fin_toggle fin_pswap : core.

(* how deep actions may be nested below this one *)
Definition rank (d : desc) : nat :=
  match d with
  | DOverload _ a | DOverloadT _ a _ | DOverloadT2 _ a _ => 2 + a
  | DOverloadI a b _ | DTimeout a _ b => 2 + Nat.max a b
  | _ => 0
  end.
Definition acyclic (c : config) : Prop :=
  forall i, i < length (c_descs c) -> rank (nth i (c_descs c) DNone) <= S i.

Lemma rank_at k i d : acyclic (k_cfg k) -> desc_at k i = Ok d ->
  rank d <= S i /\ rank d <= length (c_descs (k_cfg k)).
Proof.
  unfold desc_at. intros Hc H. destruct (N.ltb _ _); [|discriminate]. apply Ok_inj in H. subst d.
  destruct (Nat.lt_ge_cases i (length (c_descs (k_cfg k)))) as [Hl|Hl].
  - specialize (Hc _ Hl). lia.
  - rewrite nth_overflow by exact Hl. cbn [rank]. lia.
Qed.

Lemma pre_cfg d pressed dl k k0 : pre_macro d pressed dl k = Ok k0 -> k_cfg k0 = k_cfg k /\ k_pend k0 = k_pend k.
Proof.
  intros E0. destruct pressed; [|apply Ok_inj in E0; subst; auto].
  apply pre_macro_only in E0 as [l [s [o ->]]]. auto.
Qed.
Lemma deactivate_cfg k i k' : deactivate_layer k i = Ok k' -> k_cfg k' = k_cfg k /\ k_pend k' = k_pend k.
Proof. intros E. apply deactivate_ok in E as [_ [? ->]]. auto. Qed.
Lemma update_mods_cfg a k b c : k_cfg (update_mods a k b c) = k_cfg k /\ k_pend (update_mods a k b c) = k_pend k.
Proof. destruct (update_mods_only a k b c) as [? [? [? ->]]]. auto. Qed.

Lemma fin_pd : forall fuel k code d dl pressed time, acyclic (k_cfg k) ->
  rank d < fuel \/ S (length (c_descs (k_cfg k))) < fuel ->
  fin (process_descriptor fuel k code d dl pressed time).
Proof.
  induction fuel as [|fuel IH]; intros k code d dl pressed time Hc Hf; [lia|].
  cbn [process_descriptor]. apply fin_bind; auto. intros k0 E0. apply pre_cfg in E0 as [E0 _].
  apply fin_bind; [|auto].
  assert (IH1 : forall k code d dl pressed time i, k_cfg k = k_cfg k0 -> desc_at k0 i = Ok d ->
    S (S i) < S fuel \/ S (length (c_descs (k_cfg k0))) < S fuel ->
    fin (process_descriptor fuel k code d dl pressed time)).
  { intros k2 c2 d2 dl2 p2 t2 i Ek Ed Hi. apply rank_at in Ed as [R1 R2]; [|now rewrite E0].
    apply IH; [now rewrite Ek, E0|]. rewrite Ek in *. lia. }
  rewrite <- E0 in Hf.
  destruct d; cbn [rank] in Hf; auto; try (destruct pressed; auto; fail).
  - fb. auto.
  - destruct pressed; auto. fb. fb. auto.
  - apply fin_bind; auto. intros ac Ea. destruct pressed; [fb; auto|].
    apply fin_bind; auto. intros k1 E1. apply deactivate_cfg in E1 as [E1 _].
    pose proof (update_mods_cfg false k1 None 0%N) as [E2 _]. rewrite E1 in E2.
    set (k2 := update_mods false k1 None 0%N) in *. clearbody k2.
    destruct (_ && _); auto.
    assert (G : fin (k3 <- process_descriptor fuel k2 code ac dl true time ;;
                     process_descriptor fuel k3 code ac dl false time)).
    { apply fin_bind; [eapply IH1; [exact E2|exact Ea|exact Hf]|]. intros k3 E3. apply pd_frame in E3 as [E3 _].
      eapply IH1; [|exact Ea|exact Hf]. congruence. }
    destruct ac; auto. fb. auto.
  - destruct pressed; auto. fb. auto.
  - destruct pressed; auto. fb. auto.
  - destruct pressed; auto. apply fin_bind; auto. intros ac Ea. apply fin_bind; auto.
    eapply IH1; [reflexivity|exact Ea|]. destruct (_ <=? _)%Z; lia.
  - destruct pressed; auto. fb. fb. auto.
  - destruct pressed; auto. fb. fb. auto.
Qed.
Lemma fin_do k code d dl pressed time : acyclic (k_cfg k) -> fin (do_desc k code d dl pressed time).
Proof. intros H. apply fin_pd; [exact H|]. right. apply Nat.lt_succ_diag_r. Qed.

(* ---- what actions do to the undecided key ------------------------------------------ *)
Definition wt (p : pend) : nat :=
  if (p_code p =? 0)%N then 0 else S (Nat.max (rank (p_a1 p)) (rank (p_a2 p))).
Definition pp (R : nat) (k k' : kbd) : Prop := k_pend k' = k_pend k \/ wt (k_pend k') <= R.
Lemma pp_refl R k : pp R k k. Proof. now left. Qed.
Lemma pp_trans R a b c : pp R a b -> pp R b c -> pp R a c.
Proof. unfold pp. intros [H|H] [G|G]; auto; [left; congruence|right; now rewrite G]. Qed.
Lemma pp_weak R R' a b : R <= R' -> pp R a b -> pp R' a b.
Proof. unfold pp. intros L [H|H]; auto. right. lia. Qed.
Ltac pt := left; norm_states; kcbn; reflexivity.

Lemma wt_new R k code dl e b a1 a2 k' : rank a1 < R -> rank a2 < R ->
  set_pending k code dl e b a1 a2 = Ok k' -> pp R k k'.
Proof.
  unfold set_pending. intros H1 H2 H. apply schedule_ok in H. subst k'. right.
  cbn [k_pend set_k_timeouts set_k_pend]. unfold wt. cbn [p_code p_a1 p_a2].
  destruct (code =? 0)%N; lia.
Qed.
Lemma setlayout_pend R k i k' : setlayout k i = Ok k' -> pp R k k'.
Proof.
  unfold setlayout. intros H. bstep H u Eu. bstep H k1 E1. apply Ok_inj in H. subst k'.
  assert (G : forall l k, k_pend (fold_left drop_layout l k) = k_pend k).
  { clear. induction l; cbn [fold_left]; intros; auto. rewrite IHl. unfold drop_layout. destruct (is_layout _); auto. }
  left. assert (E2 : k_pend k1 = k_pend k) by (norm_states; kcbn; reflexivity).
  rewrite <- E2, <- (G (seq 1 (nlayers k1 - 1)) k1). destruct (Nat.eqb i 0); reflexivity.
Qed.
Lemma do_swap_pend R k dl i k' : do_swap k dl i = Ok k' -> pp R k k'.
Proof.
  intros H. unfold do_swap in H. bstep H u Eu. bstep H u2 Eu2.
  destruct (l_toggled (k_ls k dl)); [|destruct (negb _); [|destruct (swap_slot _ _ _ _)]].
  - bstep H k1 E1. bstep H k3 E3. apply Ok_inj in H. subst k'. pt.
  - bstep H k1 E1. bstep H k3 E3. apply Ok_inj in H. subst k'. pt.
  - bstep H k1 E1. bstep H k3 E3. apply Ok_inj in H. subst k'. pt.
  - apply Ok_inj in H. subst. apply pp_refl.
Qed.

Lemma pd_pend : forall fuel k code d dl pressed time k', acyclic (k_cfg k) ->
  process_descriptor fuel k code d dl pressed time = Ok k' ->
  pp (Nat.min (rank d) (S (length (c_descs (k_cfg k))))) k k'.
Proof.
  induction fuel as [|fuel IH]; intros k code d dl pressed time k' Hc H; [discriminate|].
  cbn [process_descriptor] in H. bstep H k0 E0. bstep H k1 E1. apply Ok_inj in H. subst k'.
  apply pre_cfg in E0 as [C0 P0]. rewrite <- C0 in Hc |- *.
  apply (pp_trans _ k k0); [now left|]. clear C0 P0 k.
  apply (pp_trans _ k0 k1); [|destruct pressed; now left].
  assert (IH0 : forall k k' code d dl pressed time i, k_cfg k = k_cfg k0 -> desc_at k0 i = Ok d ->
    process_descriptor fuel k code d dl pressed time = Ok k' ->
    pp (Nat.min (S i) (S (length (c_descs (k_cfg k0))))) k k').
  { intros k2 k3 c2 d2 dl2 p2 t2 i Ek Ed E. apply rank_at in Ed as [R1 R2]; auto.
    apply IH in E; [|now rewrite Ek]. rewrite Ek in E. eapply pp_weak; [|exact E]. lia. }
  clear IH. set (D := length (c_descs (k_cfg k0))) in *.
  destruct d; cbn [rank]; try (apply Ok_inj in E1; subst; now left).
  - unfold pd_key in E1. bstep E1 k2 E2. apply Ok_inj in E1. subst k1.
    apply (pp_trans _ k0 k2); [|destruct (_ || _); now left]. clear IH0.
    destruct pressed.
    + destruct (k_ks k0 code0); pt.
    + apply Ok_inj in E2. subst. pt.
  - unfold pd_oneshot in E1. clear IH0. destruct pressed; [|destruct (k_latch k0)].
    + bstep E1 k2 E2. apply Ok_inj in E1. subst. pt.
    + bstep E1 u Eu. destruct (_ =? 0)%Z; [apply Ok_inj in E1; subst|]; pt.
    + bstep E1 k2 E2. apply Ok_inj in E1. subst. pt.
  - unfold pd_oneshot in E1. clear IH0. destruct pressed; [|destruct (k_latch k0)].
    + bstep E1 k2 E2. apply Ok_inj in E1. subst. pt.
    + bstep E1 u Eu. destruct (_ =? 0)%Z; [apply Ok_inj in E1; subst|]; pt.
    + bstep E1 k2 E2. apply Ok_inj in E1. subst. pt.
  - unfold pd_layer in E1. clear IH0. bstep E1 k2 E2. apply Ok_inj in E1. subst k1. destruct pressed; pt.
  - unfold pd_swap in E1. clear IH0. destruct pressed.
    + bstep E1 k2 E2. apply Ok_inj in E1. subst. eapply do_swap_pend; eauto.
    + apply Ok_inj in E1. subst. apply pp_refl.
  - bstep E1 mm Em. clear IH0. unfold pd_swap in E1. destruct pressed.
    + bstep E1 k2 E2. apply Ok_inj in E1. subst. eapply pp_trans; [eapply do_swap_pend; eauto|]. pt.
    + apply Ok_inj in E1. subst. destruct mm as [|[[] dt] [|]]; pt.
  - unfold pd_layer in E1. clear IH0. bstep E1 k2 E2. apply Ok_inj in E1. subst k1. destruct pressed; pt.
  - destruct pressed; [eapply setlayout_pend; exact E1|apply Ok_inj in E1; subst; apply pp_refl].
  - destruct pressed; [|apply Ok_inj in E1; subst; apply pp_refl]. clear IH0. pt.
  - destruct pressed; [|apply Ok_inj in E1; subst; apply pp_refl].
    bstep E1 mm Em. bstep E1 k2 E2. apply Ok_inj in E1. subst. clear IH0. pt.
  - bstep E1 ac Ea. destruct pressed.
    + bstep E1 k2 E2. apply Ok_inj in E1. subst. clear IH0. pt.
    + bstep E1 k2 E2. apply deactivate_cfg in E2 as [C2 P2].
      pose proof (update_mods_cfg false k2 None 0%N) as [C3 P3]. rewrite C2 in C3. rewrite P2 in P3.
      set (k3 := update_mods false k2 None 0%N) in *. clearbody k3.
      apply (pp_trans _ k0 k3); [now left|]. clear P2 P3 C2 k2.
      destruct (_ && _) in E1; [|apply Ok_inj in E1; subst; apply pp_refl].
      assert (G : forall k1, (k4 <- process_descriptor fuel k3 code ac dl true time ;;
                   process_descriptor fuel k4 code ac dl false time) = Ok k1 ->
                   pp (Nat.min (2 + a) (S D)) k3 k1).
      { clear E1. intros k5 E5. bstep E5 k4 E4. pose proof (pd_frame _ _ _ _ _ _ _ _ E4) as [F _].
        apply (pp_weak (Nat.min (S a) (S D))); [lia|]. eapply pp_trans; eapply IH0; eauto. congruence. }
      destruct ac; try (apply G; exact E1).
      bstep E1 mm Em. apply Ok_inj in E1. subst. clear G. pt.
  - destruct pressed; [|apply Ok_inj in E1; subst; apply pp_refl].
    bstep E1 ac Ea. apply rank_at in Ea as [R1 R2]; auto. eapply wt_new; [| |exact E1]; cbn [rank]; lia.
  - destruct pressed; [|apply Ok_inj in E1; subst; apply pp_refl].
    bstep E1 ac Ea. apply rank_at in Ea as [R1 R2]; auto. eapply wt_new; [| |exact E1]; cbn [rank]; lia.
  - destruct pressed; [|apply Ok_inj in E1; subst; apply pp_refl].
    bstep E1 ac Ea. bstep E1 k2 E2. apply Ok_inj in E1. subst.
    apply (pp_trans _ k0 k2).
    + eapply pp_weak; [|eapply IH0; eauto]. destruct (_ <=? _)%Z; lia.
    + unfold cache_replace_d. destruct (cache_find _ _ _); now left.
  - unfold pd_toggle in E1. clear IH0. destruct pressed; [|apply Ok_inj in E1; subst; apply pp_refl].
    bstep E1 u Eu. bstep E1 k2 E2. destruct (l_toggled _); pt.
  - unfold pd_toggle in E1. clear IH0. destruct pressed; [|apply Ok_inj in E1; subst; apply pp_refl].
    bstep E1 u Eu. bstep E1 k2 E2. destruct (l_toggled _); pt.
  - unfold pd_macro in E1. clear IH0. destruct pressed; [|apply Ok_inj in E1; subst; apply pp_refl].
    bstep E1 mm Em. bstep E1 k2 E2. pt.
  - unfold pd_macro in E1. clear IH0. destruct pressed; [|apply Ok_inj in E1; subst; apply pp_refl].
    bstep E1 mm Em. bstep E1 k2 E2. pt.
  - destruct pressed; [|apply Ok_inj in E1; subst; apply pp_refl].
    bstep E1 cm Em. bstep E1 k2 E2. apply Ok_inj in E1. subst. clear IH0. pt.
  - destruct pressed; [|apply Ok_inj in E1; subst; apply pp_refl].
    bstep E1 ac Ea. bstep E1 ac2 Ea2. apply rank_at in Ea as [R1 R2]; auto. apply rank_at in Ea2 as [R3 R4]; auto.
    eapply wt_new; [| |exact E1]; lia.
Qed.

(* ---- the pending stage ---------------------------------------------------------------- *)
Definition w (code : N) : nat := if (code =? 0)%N then 0 else 1.

Lemma fin_pending_plan k code pressed time : acyclic (k_cfg k) -> fin (pending_plan k code pressed time).
Proof.
  intros H. unfold pending_plan. cbv zeta. destruct (_ =? 0)%N; auto. destruct (_ && _); auto. destruct (_ && _); auto.
  destruct (has_op _); auto. apply fin_bind; auto. unfold decide. apply fin_do.
  destruct (cache_set _ _ _) as [k1|] eqn:E; [|exact H].
  apply cache_set_frame in E as [E _]. now rewrite E.
Qed.
Lemma decide_cost k p a time k' : acyclic (k_cfg k) -> decide k p a time = Ok k' ->
  wt (k_pend k') <= rank a /\ p_queue (k_pend k') = [] /\ k_chord k' = k_chord k /\ k_cfg k' = k_cfg k
  /\ k_achords k' = k_achords k.
Proof.
  intros Hc H. pose proof (decide_queue _ _ _ _ _ H) as [Q1 Q2]. unfold decide in H.
  set (k2 := match cache_set _ _ _ with Some k' => k' | None => _ end) in H.
  assert (E : k_pend k2 = set_p_code 0%N (set_p_queue [] p) /\ k_cfg k2 = k_cfg k /\ k_achords k2 = k_achords k).
  { subst k2. destruct (cache_set _ _ _) as [k1|] eqn:E; [|auto].
    pose proof (cache_set_frame _ _ _ _ E) as [E1 [_ [_ [E2 _]]]].
    apply cache_set_spec in E as [i [e [-> _]]]. auto. }
  destruct E as [E1 [E2 E3]]. clearbody k2. pose proof (do_desc_frame _ _ _ _ _ _ _ H) as [F1 [_ [_ [F4 _]]]].
  split; [|split; [exact Q1|split; [exact Q2|split; congruence]]].
  unfold do_desc in H. apply pd_pend in H; [|now rewrite E2]. destruct H as [H|H]; [|lia].
  rewrite H, E1. unfold wt. cbn. lia.
Qed.
Lemma pending_cost k code pressed time k' pl : acyclic (k_cfg k) ->
  pending_plan k code pressed time = Ok (k', pl) ->
  k_chord k' = k_chord k /\ k_achords k' = k_achords k /\ k_cfg k' = k_cfg k
  /\ match pl with
     | PPass => k' = k
     | PTaken => wt (k_pend k') = wt (k_pend k)
                 /\ length (p_queue (k_pend k')) <= length (p_queue (k_pend k)) + w code
     | PReplay evs => wt (k_pend k') < wt (k_pend k) /\ p_queue (k_pend k') = []
                      /\ length evs <= length (p_queue (k_pend k)) + w code
     end.
Proof.
  intros Hc H. unfold pending_plan in H. cbv zeta in H.
  destruct (p_code (k_pend k) =? 0)%N eqn:Ez.
  { apply Ok_inj in H. injection H as <- <-. auto. }
  destruct (_ && _) in H; [discriminate H|]. destruct (_ && _) in H.
  { apply Ok_inj in H. injection H as <- <-. auto. }
  set (p1 := if (code =? 0)%N then _ else _) in H.
  assert (E : wt p1 = wt (k_pend k) /\ length (p_queue p1) <= length (p_queue (k_pend k)) + w code
    /\ p_a1 p1 = p_a1 (k_pend k) /\ p_a2 p1 = p_a2 (k_pend k)).
  { subst p1. unfold w. destruct (code =? 0)%N; [repeat split; lia|].
    split; [reflexivity|]. split; [|auto]. cbn [p_queue set_p_queue]. rewrite app_length. cbn [length]. lia. }
  destruct E as [E1 [E2 [E3 E4]]]. clearbody p1.
  destruct (has_op _) eqn:Eo in H.
  - bstep H k3 E. apply Ok_inj in H. injection H as <- <-. apply decide_cost in E as [A1 [A2 [A3 [A4 A5]]]]; auto.
    split; [exact A3|]. split; [exact A5|]. split; [exact A4|]. split; [|split; auto].
    eapply Nat.le_lt_trans; [exact A1|]. apply pending_action_src in Eo. unfold wt. rewrite Ez.
    destruct Eo as [-> | ->]; rewrite ?E3, ?E4; lia.
  - apply Ok_inj in H. injection H as <- <-. cbn [k_chord k_cfg k_achords k_pend set_k_pend]. auto.
Qed.

(* ---- the rest --------------------------------------------------------------------------- *)
Lemma fin_rest k code pressed time : acyclic (k_cfg k) -> fin (rest_step k code pressed time).
Proof.
  intros H. unfold rest_step. apply fin_bind.
  { unfold expire_oneshot. destruct (_ && _); auto. fb. auto. }
  intros k3 E3. apply expire_frame in E3 as [E3 _]. apply fin_bind.
  { unfold run_active_macro. destruct (k_amacro k3); auto. destruct (negb _); auto.
    destruct (_ <=? _)%Z; auto. fb. auto. }
  intros k4 E4. apply run_macro_frame in E4 as [E4 _]. rewrite E3 in E4.
  unfold handle_key. destruct (code =? 0)%N; auto.
  assert (G : forall x e k1 d dl p, cache_set k4 x e = Some k1 -> fin (do_desc k1 code d dl p time)).
  { intros x e k1 d dl p E. apply cache_set_frame in E as [E _]. apply fin_do. now rewrite E, E4. }
  destruct pressed.
  - destruct (cache_get _ _); auto. destruct (lookup_descriptor _ _) as [d dl].
    destruct (cache_set _ _ _) eqn:E; auto. eapply G; eauto.
  - destruct (cache_get _ _); auto. destruct (cache_set _ _ _) eqn:E; auto. eapply G; eauto.
Qed.
Lemma rest_cost k code pressed time k' : acyclic (k_cfg k) -> rest_step k code pressed time = Ok k' ->
  pp (w code * S (length (c_descs (k_cfg k)))) k k'.
Proof.
  intros Hc H. unfold rest_step in H. bstep H k3 E3. bstep H k4 E4.
  pose proof (expire_cp _ _ _ E3) as [[P3 _] _]. pose proof (run_macro_cp _ _ _ _ E4) as [[P4 _] _].
  apply expire_frame in E3 as [E3 _]. apply run_macro_frame in E4 as [E4 _].
  apply (pp_trans _ k k4); [left; congruence|]. rewrite <- E3, <- E4. rewrite <- E3, <- E4 in Hc.
  clear P3 P4 E3 E4 k k3. unfold handle_key in H. unfold w.
  destruct (code =? 0)%N; [apply Ok_inj in H; subst; apply pp_refl|]. rewrite Nat.mul_1_l.
  assert (G : forall x e k1 d dl p, cache_set k4 x e = Some k1 -> do_desc k1 code d dl p time = Ok k' ->
              pp (S (length (c_descs (k_cfg k4)))) k4 k').
  { intros x e k1 d dl p E E2. pose proof (cache_set_frame _ _ _ _ E) as [F _].
    apply cache_set_spec in E as [i [e0 [E _]]]. apply (pp_trans _ k4 k1); [left; now rewrite E|].
    unfold do_desc in E2. apply pd_pend in E2; [|now rewrite F]. rewrite F in E2.
    eapply pp_weak; [|exact E2]. lia. }
  destruct pressed.
  - destruct (cache_get _ _); [apply Ok_inj in H; subst; apply pp_refl|].
    destruct (lookup_descriptor _ _) as [d dl].
    destruct (cache_set _ _ _) eqn:E; [eapply G; eauto|apply Ok_inj in H; subst; apply pp_refl].
  - destruct (cache_get _ _); [|apply Ok_inj in H; subst; apply pp_refl].
    destruct (cache_set _ _ _) eqn:E; [eapply G; eauto|apply Ok_inj in H; subst; apply pp_refl].
Qed.

(* ---- the chord stage -------------------------------------------------------------------- *)
Definition mkeys (k : kbd) : nat :=
  match h_match (k_chord k) with
  | Some (li, ci) => length (ch_keys (nth ci (ly_chords (layer_at k li)) zero_chord))
  | None => 1
  end.
(* events held by an attempt under way, plus one for the press of a chord without keys *)
Definition extra (k : kbd) : nat :=
  match h_match (k_chord k) with
  | None => 0
  | Some _ => 1 - Nat.min (mkeys k) (length (h_queue (k_chord k)))
  end.
Definition cl (k : kbd) : nat :=
  match h_state (k_chord k) with
  | CsDisambiguation | CsHold => length (h_queue (k_chord k)) + extra k
  | _ => 0
  end.
Definition cl0 (k : kbd) : nat := length (h_queue (k_chord k)) + extra k.
(* keys still held of the active chords *)
Definition nzk (l : list N) : nat := length (filter (fun x => negb (x =? 0)%N) l).
Definition ak (k : kbd) : nat := list_sum (map (fun a => nzk (ch_keys (ac_chord a))) (k_achords k)).

Definition nz (evs : list kev) : nat := length (filter (fun e => negb (ev_code e =? 0)%N) evs).
Lemma nz_le evs : nz evs <= length evs.
Proof. unfold nz. induction evs; cbn [filter length]; auto. destruct (negb _); cbn [length]; lia. Qed.
Lemma nz_cons e evs : nz (e :: evs) = w (ev_code e) + nz evs.
Proof. unfold nz, w. cbn [filter]. destruct (ev_code e =? 0)%N; reflexivity. Qed.

Definition plan_events (pl : cplan) : nat :=
  match pl with
  | PlanPass | PlanTaken => 0
  | PlanRelease _ => 1
  | PlanReplay press rest =>
      match press with Some _ => 1 | None => 0 end
      + match rest with Some evs => length evs | None => 0 end
  end.
Definition cost_ok (k : kbd) (c : nat) (r : kbd * cplan) : Prop :=
  let '(k', pl) := r in
  cl k' + plan_events pl <= c /\ k_pend k' = k_pend k /\ k_cfg k' = k_cfg k
  /\ match pl with
     | PlanReplay _ _ => h_state (k_chord k') = CsResolving
     | _ => True
     end.

Lemma resolve_cost k r : resolve_plan k = Ok r -> cost_ok k (cl0 k) r /\ exists p e, snd r = PlanReplay p e.
Proof.
  unfold resolve_plan. intros H. cbn [h_match set_cstate k_chord set_k_chord set_h_state h_queue h_mlayer] in H.
  unfold cl0, extra, mkeys. destruct (h_match (k_chord k)) as [[li ci]|] eqn:Em.
  - bstep H ch Ed. destruct (free_chord _ 0) as [i|]; [|discriminate H]. apply Ok_inj in H. subst r.
    split; [|do 2 eexists; reflexivity].
    split; [|auto]. unfold cl. cbn [k_chord set_k_achords set_cstate set_k_chord set_h_state h_state plan_events].
    unfold deref_match in Ed. destruct (_ && _) in Ed; [|discriminate Ed]. apply Ok_inj in Ed. subst ch.
    change (layer_at (set_cstate CsResolving k) li) with (layer_at k li).
    destruct (Nat.ltb_spec (length (h_queue (k_chord k))) (length (ch_keys (nth ci (ly_chords (layer_at k li)) zero_chord)))).
    + lia.
    + rewrite skipn_length. lia.
  - apply Ok_inj in H. subst r. split; [|do 2 eexists; reflexivity]. split; [|auto]. unfold cl.
    cbn [k_chord set_k_achords set_cstate set_k_chord set_h_state h_state plan_events]. lia.
Qed.
Lemma cost_trans k k1 c c' r : k_pend k1 = k_pend k -> k_cfg k1 = k_cfg k -> c' <= c -> cost_ok k1 c' r -> cost_ok k c r.
Proof. destruct r as [k' pl]. intros E1 E2 L [A [B [C D]]]. split; [lia|]. split; [congruence|]. split; [congruence|auto]. Qed.
Lemma abort_cost k r : abort_plan k = Ok r ->
  cost_ok k (length (h_queue (k_chord k))) r /\ exists p e, snd r = PlanReplay p e.
Proof.
  unfold abort_plan. intros H. apply resolve_cost in H as [H1 H2]. split; auto.
  eapply cost_trans; [| | |exact H1]; auto. unfold cl0, extra.
  cbn [k_chord set_k_chord set_h_match h_queue h_match]. lia.
Qed.
Lemma schedule_fields k t k' : schedule_timeout k t = Ok k' ->
  k_pend k' = k_pend k /\ k_cfg k' = k_cfg k /\ k_chord k' = k_chord k /\ k_achords k' = k_achords k.
Proof. intros H. apply schedule_ok in H. now subst k'. Qed.
Lemma cl_le k : cl k <= cl0 k. Proof. unfold cl, cl0. destruct (h_state _); lia. Qed.
Lemma cl0_same k k' : k_cfg k' = k_cfg k -> h_queue (k_chord k') = h_queue (k_chord k) ->
  h_match (k_chord k') = h_match (k_chord k) -> cl0 k' = cl0 k.
Proof. unfold cl0, extra, mkeys, layer_at. now intros -> -> ->. Qed.

Lemma matched_cost k x time r : matched_plan k x time = Ok r -> cost_ok k (cl0 k) r.
Proof.
  unfold matched_plan. intros H.
  set (k1 := set_k_chord (set_h_last time (k_chord k)) k) in *.
  assert (G : forall s t k2, schedule_timeout (set_cstate s k1) t = Ok k2 -> cost_ok k (cl0 k) (k2, PlanTaken)).
  { intros s t k2 E. apply schedule_fields in E as [E1 [E2 [E3 _]]]. split.
    - cbn [plan_events]. pose proof (cl_le k2). rewrite (cl0_same k k2) in H0; [lia|exact E2|now rewrite E3|now rewrite E3].
    - split; [exact E1|]. split; [exact E2|auto]. }
  assert (G1 : forall r, resolve_plan k1 = Ok r -> cost_ok k (cl0 k) r).
  { intros r1 E. apply resolve_cost in E as [E _]. exact E. }
  destruct x; try (destruct (_ =? 0)%Z; [now apply G1|]); bstep H k2 E; apply Ok_inj in H; subst r; eapply G; eauto.
Qed.

(* a full match has keys *)
Definition full_ok (k : kbd) (a : cmacc) : Prop :=
  let '(best, _, _) := a in forall li ci, best = Some (li, ci) ->
    1 <= length (ch_keys (nth ci (ly_chords (layer_at k li)) zero_chord)) <= length (h_queue (k_chord k)).
Lemma check_layer1_full k a li : full_ok k a -> full_ok k (check_layer1 k a li).
Proof.
  intros Ha. unfold check_layer1. destruct (is_active k li); auto.
  apply fold_left_inv; auto.
  intros [[best mx] part] [ci ch] Hb Hin. unfold check_chord1.
  destruct (chord_event_match ch _) eqn:E; auto.
  destruct (_ <=? _)%Z; auto.
  intros li2 ci2 [= <- <-].
  assert (Hch : nth ci (ly_chords (layer_at k li)) zero_chord = ch).
  { apply In_nth with (d := (0, zero_chord)) in Hin as [j [Hj Hn]].
    rewrite combine_length, seq_length, Nat.min_id in Hj.
    rewrite combine_nth in Hn by now rewrite seq_length.
    rewrite seq_nth in Hn by auto. injection Hn as Hn1 Hn2. cbn in Hn1. now subst. }
  rewrite Hch. split; [|now apply chord_full_le].
  unfold chord_event_match in E. destruct (chord_presses _ _ _) as [[|n]|]; try discriminate.
  destruct (Nat.eqb_spec (S n) (length (ch_keys ch))); [lia|discriminate].
Qed.
Lemma check_cost k r k' : check_chord_match k = (r, k') ->
  cl0 k' <= cl0 k /\ k_pend k' = k_pend k /\ k_cfg k' = k_cfg k /\ h_state (k_chord k') = h_state (k_chord k)
  /\ h_queue (k_chord k') = h_queue (k_chord k).
Proof.
  unfold check_chord_match.
  assert (H : full_ok k (fold_left (check_layer1 k) (seq 0 (nlayers k)) (None, (-1)%Z, false))).
  { apply fold_left_inv; [|discriminate]. intros a li Ha Hli. now apply check_layer1_full. }
  destruct (fold_left _ _ _) as [[[[li ci]|] mx] part]; intros [= <- <-]; [|repeat split; lia].
  split; [|repeat split]. specialize (H _ _ eq_refl). unfold cl0, extra, mkeys.
  cbn [k_chord set_k_chord set_h_match set_h_mlayer h_match h_queue]. change (layer_at (set_k_chord _ k) li) with (layer_at k li).
  lia.
Qed.
Lemma enqueue_cost k code pressed time k' : enqueue_chord_event k code pressed time = Ok k' ->
  cl0 k' <= cl0 k + w code /\ length (h_queue (k_chord k')) <= length (h_queue (k_chord k)) + w code
  /\ k_pend k' = k_pend k /\ k_cfg k' = k_cfg k /\ h_state (k_chord k') = h_state (k_chord k).
Proof.
  unfold enqueue_chord_event, w. intros H. destruct (code =? 0)%N.
  - apply Ok_inj in H. subst. repeat split; lia.
  - destruct (Nat.ltb _ _); [|discriminate]. apply Ok_inj in H. subst.
    assert (L : length (h_queue (k_chord k) ++ [mkKev code pressed time]) = length (h_queue (k_chord k)) + 1)
      by now rewrite app_length.
    split; [|split; [|auto]].
    + unfold cl0, extra, mkeys. cbn [k_chord set_k_chord set_h_queue h_match h_queue]. rewrite L.
      destruct (h_match (k_chord k)) as [[li ci]|]; [|lia].
      change (layer_at (set_k_chord _ k) li) with (layer_at k li). lia.
    + cbn [k_chord set_k_chord set_h_queue h_queue]. now rewrite L.
Qed.

Lemma nzk_map code : forall l, in_keys code l = true -> code <> 0%N ->
  nzk (map (fun x => if (x =? code)%N then 0%N else x) l) < nzk l.
Proof.
  intros l Hi Hc. assert (L : forall l, nzk (map (fun x => if (x =? code)%N then 0%N else x) l) <= nzk l).
  { clear l Hi. unfold nzk. induction l as [|x l IH]; cbn [map filter length]; auto.
    destruct (N.eqb_spec x code) as [->|Hx]; cbn [negb].
    - destruct (N.eqb_spec code 0); [contradiction|]. cbn [N.eqb negb filter length]. lia.
    - destruct (negb (x =? 0)%N); cbn [length]; lia. }
  revert Hi. unfold nzk in *. induction l as [|x l IH]; cbn [in_keys existsb map filter length]; [discriminate|].
  intros Hi. destruct (N.eqb_spec x code) as [->|Hx].
  - destruct (N.eqb_spec code 0); [contradiction|]. cbn [N.eqb negb filter length]. specialize (L l). lia.
  - destruct (N.eqb_spec code x); [congruence|]. cbn [orb] in Hi. specialize (IH Hi).
    destruct (negb (x =? 0)%N); cbn [length]; lia.
Qed.
Lemma sum_upd (f : achord -> nat) : forall acs i a, i < length acs -> f a < f (nth i acs zero_ac) ->
  list_sum (map f (upd i a acs)) < list_sum (map f acs).
Proof.
  induction acs as [|x acs IH]; intros [|i] a Hl Hf; cbn [length] in Hl; try lia; cbn [upd map list_sum fold_right nth] in *.
  - unfold list_sum. cbn [fold_right]. lia.
  - unfold list_sum in *. cbn [fold_right]. specialize (IH i a ltac:(lia) Hf). lia.
Qed.
Lemma chord_of_key_spec acs code i : chord_of_key acs code 0 = Some i ->
  i < length acs /\ in_keys code (ch_keys (ac_chord (nth i acs zero_ac))) = true.
Proof.
  assert (G : forall acs n, chord_of_key acs code n = Some i -> n <= i < n + length acs
     /\ in_keys code (ch_keys (ac_chord (nth (i - n) acs zero_ac))) = true).
  { clear. induction acs as [|a r IH]; cbn [chord_of_key length]; intros n H; [discriminate|].
    destruct (_ && _) eqn:E.
    - injection H as <-. rewrite Nat.sub_diag. cbn [nth]. apply andb_true_iff in E as [_ E]. split; [lia|exact E].
    - apply IH in H as [H1 H2]. split; [lia|]. replace (i - n) with (S (i - S n)) by lia. exact H2. }
  intros H. apply G in H as [H1 H2]. rewrite Nat.sub_0_r in H2. split; [lia|exact H2].
Qed.

Definition chord_costs (k : kbd) (code : N) (k' : kbd) (pl : cplan) : Prop :=
  k_pend k' = k_pend k /\ k_cfg k' = k_cfg k
  /\ match pl with
     | PlanPass => cl k' <= cl k /\ (h_state (k_chord k) = CsResolving -> h_state (k_chord k') = CsResolving)
     | PlanTaken => cl k' <= cl k + w code
          /\ (h_state (k_chord k) = CsResolving -> h_state (k_chord k') = CsResolving)
     | PlanRelease _ => cl k' <= cl k /\ w code = 1 /\ h_state (k_chord k') = h_state (k_chord k) /\ ak k' < ak k
     | PlanReplay _ _ => plan_events pl <= cl k + w code
          /\ h_state (k_chord k') = CsResolving /\ h_state (k_chord k) <> CsResolving
     end.
Lemma chord_cost k code pressed time k' pl : chord_plan k code pressed time = Ok (k', pl) -> chord_costs k code k' pl.
Proof.
  unfold chord_plan. intros H.
  destruct (if negb (code =? 0)%N && negb pressed then _ else _) as [i|] eqn:Ei.
  - destruct (negb (code =? 0)%N && negb pressed) eqn:Eb; [|discriminate Ei].
    apply andb_true_iff in Eb as [Eb _]. apply negb_true_iff in Eb. apply chord_of_key_spec in Ei as [Ei1 Ei2].
    destruct (chord_up k code i) as [k1 rem] eqn:Eu. apply Ok_inj in H.
    unfold chord_up in Eu. injection Eu as E1 E2. apply pair_equal_spec in H as [<- Hp]. rewrite E2 in *. subst k1.
    split; [reflexivity|]. split; [reflexivity|]. subst pl. destruct rem; cbv beta iota.
    + split; [change (cl (set_k_achords _ k)) with (cl k); lia|auto].
    + split; [change (cl (set_k_achords _ k)) with (cl k); lia|]. split; [unfold w; now rewrite Eb|].
      split; [reflexivity|]. unfold ak. cbn [k_achords set_k_achords]. apply sum_upd; [exact Ei1|].
      cbn [ac_chord ch_keys]. apply nzk_map; [exact Ei2|]. now apply N.eqb_neq.
  - assert (G : forall k1 c (Hs : h_state (k_chord k) <> CsResolving) (E1 : k_pend k1 = k_pend k) (E2 : k_cfg k1 = k_cfg k)
       (Hc : c <= cl k + w code), cost_ok k1 c (k', pl) -> pl <> PlanPass ->
       (forall i, pl <> PlanRelease i) ->
       chord_costs k code k' pl).
    { intros k1 c Hs E1 E2 Hc [A [B [C D]]] N1 N2. split; [congruence|]. split; [congruence|].
      destruct pl as [| |j|p e]; [now destruct N1| |now destruct (N2 j)|].
      - cbn [plan_events] in A. split; [lia|intros; contradiction].
      - split; [lia|]. auto. }
    assert (Gr : forall k1 (Hs : h_state (k_chord k) <> CsResolving) (E1 : k_pend k1 = k_pend k) (E2 : k_cfg k1 = k_cfg k)
       (Hc : cl0 k1 <= cl k + w code), resolve_plan k1 = Ok (k', pl) -> chord_costs k code k' pl) by
      (intros k1 Hs E1 E2 Hc Hr; apply resolve_cost in Hr as [R1 [p [e R2]]]; cbn [snd] in R2;
       exact (G k1 _ Hs E1 E2 Hc R1 ltac:(now rewrite R2) ltac:(now rewrite R2))).
    assert (Ga : forall k1 (Hs : h_state (k_chord k) <> CsResolving) (E1 : k_pend k1 = k_pend k) (E2 : k_cfg k1 = k_cfg k)
       (Hc : length (h_queue (k_chord k1)) <= cl k + w code), abort_plan k1 = Ok (k', pl) -> chord_costs k code k' pl) by
      (intros k1 Hs E1 E2 Hc Hr; apply abort_cost in Hr as [R1 [p [e R2]]]; cbn [snd] in R2;
       exact (G k1 _ Hs E1 E2 Hc R1 ltac:(now rewrite R2) ltac:(now rewrite R2))).
    assert (Gm : forall k1 x (Hs : h_state (k_chord k) <> CsResolving) (E1 : k_pend k1 = k_pend k) (E2 : k_cfg k1 = k_cfg k)
       (Hc : cl0 k1 <= cl k + w code), matched_plan k1 x time = Ok (k', pl) -> chord_costs k code k' pl).
    { intros k1 x Hs E1 E2 Hc Hr. pose proof (matched_cost _ _ _ _ Hr) as R1.
      refine (G k1 _ Hs E1 E2 Hc R1 _ _); unfold matched_plan in Hr;
        (destruct x; [| |destruct (_ =? 0)%Z; [apply resolve_cost in Hr as [_ [p [e R2]]]; cbn [snd] in R2; now rewrite R2|]|]);
        bstep Hr k2 E; apply Ok_inj in Hr; apply pair_equal_spec in Hr as [_ <-]; discriminate. }
    destruct (h_state (k_chord k)) eqn:Es.
    + apply Ok_inj in H. injection H as <- <-. repeat split; auto.
    + bstep H k1 E1. apply enqueue_cost in E1 as [A1 [A2 [A3 [A4 A5]]]].
      assert (Z : cl0 (set_k_chord (set_h_match None (set_h_queue [] (k_chord k))) k) = 0) by reflexivity.
      rewrite Z in A1.
      destruct (check_chord_match k1) as [x k2] eqn:Ec. apply check_cost in Ec as [B1 [B2 [B3 [B4 B5]]]].
      cbn [k_pend k_cfg set_k_chord k_chord set_h_match set_h_queue h_state] in A3, A4, A5.
      assert (C : x = CC0 \/ x <> CC0) by (destruct x; auto; right; discriminate). destruct C as [->|C].
      * apply Ok_inj in H. injection H as <- <-. split; [congruence|]. split; [congruence|].
        split; [|intros X; congruence]. unfold cl. rewrite B4, A5, Es. lia.
      * apply (Gm k2 x); [discriminate|congruence|congruence|lia|]. destruct x; auto. now destruct C.
    + assert (Z : cl k = cl0 k) by (unfold cl, cl0; now rewrite Es).
      assert (Zq : length (h_queue (k_chord k)) <= cl0 k) by (unfold cl0; lia).
      destruct (code =? 0)%N eqn:Ez.
      * destruct (_ <=? _)%Z.
        2: { apply Ok_inj in H. injection H as <- <-. repeat split; auto. }
        destruct (h_match (k_chord k)) eqn:Em.
        2: { apply (Ga k); auto; [discriminate|lia]. }
        destruct (0 <? _)%Z.
        2: { apply (Gr k); auto; [discriminate|lia]. }
        bstep H k1 E1. apply schedule_fields in E1 as [B1 [B2 [B3 _]]]. apply Ok_inj in H. injection H as <- <-.
        split; [exact B1|]. split; [exact B2|]. split; [|intros X; congruence].
        pose proof (cl_le (set_cstate CsHold k1)) as L. rewrite (cl0_same k) in L; [lia|exact B2| |];
          unfold set_cstate; cbn [k_chord set_k_chord set_h_state h_queue h_match]; now rewrite B3.
      * bstep H k1 E1. apply enqueue_cost in E1 as [A1 [A2 [A3 [A4 A5]]]]. destruct pressed; cbn [negb] in H.
        2: { apply (Ga k1); auto; [discriminate|]. lia. }
        destruct (check_chord_match k1) as [x k2] eqn:Ec. apply check_cost in Ec as [B1 [B2 [B3 [B4 B5]]]].
        assert (C : x = CC0 \/ x <> CC0) by (destruct x; auto; right; discriminate). destruct C as [->|C].
        -- apply (Ga k2); [discriminate|congruence|congruence| |exact H]. rewrite B5. lia.
        -- apply (Gm k2 x); [discriminate|congruence|congruence|lia|]. destruct x; auto. now destruct C.
    + assert (Z : cl k = cl0 k) by (unfold cl, cl0; now rewrite Es).
      assert (Zq : length (h_queue (k_chord k)) <= cl0 k) by (unfold cl0; lia).
      destruct (code =? 0)%N eqn:Ez.
      * destruct (_ <=? _)%Z.
        2: { apply Ok_inj in H. injection H as <- <-. repeat split; auto. }
        apply (Gr k); auto; [discriminate|lia].
      * bstep H k1 E1. apply enqueue_cost in E1 as [A1 [A2 [A3 [A4 A5]]]].
        assert (R : chord_costs k code k1 PlanTaken).
        { pose proof (cl_le k1). repeat split; auto; [lia|intros X; congruence]. }
        destruct pressed; cbn [negb] in H.
        1: { apply Ok_inj in H. injection H as <- <-. exact R. }
        destruct (h_match (k_chord k1)); [|discriminate H]. bstep H ch Ed.
        destruct (in_keys _ _).
        -- apply (Ga k1); auto; [discriminate|]. lia.
        -- apply Ok_inj in H. injection H as <- <-. exact R.
Qed.

Lemma fin_resolve k : fin (resolve_plan k).
Proof.
  unfold resolve_plan. destruct (h_match _) as [p|]; auto. apply fin_bind.
  { unfold deref_match. destruct p. destruct (_ && _); auto. }
  intros ch _. destruct (free_chord _ _); auto.
Qed.
Lemma fin_abort k : fin (abort_plan k). Proof. apply fin_resolve. Qed.
Lemma fin_matched k x time : fin (matched_plan k x time).
Proof.
  unfold matched_plan. destruct x; try (destruct (_ =? 0)%Z; [apply fin_resolve|]); fb; auto.
Qed.
Lemma fin_enqueue k c p t : fin (enqueue_chord_event k c p t).
Proof. unfold enqueue_chord_event. destruct (_ =? 0)%N; auto. destruct (Nat.ltb _ _); auto. Qed.
Global Hint Resolve fin_resolve fin_abort fin_matched fin_enqueue : core.
Lemma fin_chord k code pressed time : fin (chord_plan k code pressed time).
Proof.
  unfold chord_plan. destruct (if negb (code =? 0)%N && negb pressed then _ else _) as [i|].
  { destruct (chord_up _ _ _); auto. }
  destruct (h_state _); auto.
  - fb. destruct (check_chord_match _) as [[] k2]; auto.
  - destruct (code =? 0)%N.
    + destruct (_ <=? _)%Z; auto. destruct (h_match _); auto. destruct (0 <? _)%Z; auto. fb. auto.
    + fb. destruct (negb pressed); auto. destruct (check_chord_match _) as [[] k2]; auto.
  - destruct (code =? 0)%N.
    + destruct (_ <=? _)%Z; auto.
    + fb. destruct (negb pressed); auto. destruct (h_match _) as [p|]; auto. apply fin_bind.
      { unfold deref_match. destruct p. destruct (_ && _); auto. }
      intros ch _. destruct (in_keys _ _); auto.
Qed.

(* ---- more fuel changes nothing --------------------------------------------------------------- *)
Definition rle {A} (r r' : res A) : Prop := r = NoFuel \/ r = r'.
Lemma rle_refl {A} (r : res A) : rle r r. Proof. now right. Qed.
Lemma rle_bind {A B} (e e' : res A) (f f' : A -> res B) :
  rle e e' -> (forall a, rle (f a) (f' a)) -> rle (bind e f) (bind e' f').
Proof. intros [->| ->] H; [now left|]. destruct e'; cbn [bind]; auto using rle_refl. Qed.

Section Mono.
Variables pe pe' : pe_t.
Hypothesis Hpe : forall k c p t, rle (pe k c p t) (pe' k c p t).
Lemma loop_mono : forall f f' k evs t ts, f <= f' -> rle (pe_loop pe f k evs t ts) (pe_loop pe' f' k evs t ts).
Proof.
  induction f as [|f IH]; intros f' k evs t ts Hf; destruct evs as [|ev rest].
  - destruct f'; apply rle_refl.
  - now left.
  - destruct f'; apply rle_refl.
  - destruct f' as [|f']; [lia|]. cbn [pe_loop]. destruct (_ && _); apply rle_bind; auto; intros [k1 t1]; apply IH; lia.
Qed.
Variables pes pes' : pes_t.
Hypothesis Hpes : forall k evs, rle (pes k evs) (pes' k evs).
Lemma pe_F_mono k c p t : rle (process_event_F pe pes k c p t) (process_event_F pe' pes' k c p t).
Proof.
  rewrite !process_event_plan. apply rle_bind.
  - apply rle_bind; [apply rle_refl|]. intros [k1 pl]. destruct pl as [| |i|press rest]; cbn [run_plan]; try apply rle_refl.
    + apply rle_bind; [apply Hpe|]. intros [k2 t2]. apply rle_refl.
    + apply rle_bind.
      * destruct press; [|apply rle_refl]. apply rle_bind; [apply Hpe|]. intros [k2 t2]. apply rle_refl.
      * intros k2. destruct rest; [|apply rle_refl]. apply rle_bind; [apply Hpes|]. intros [k3 t3]. apply rle_refl.
  - intros [k1 b]. destruct b; [apply rle_refl|]. unfold after_chord. apply rle_bind; [|intros [k2 b2]; apply rle_refl].
    apply rle_bind; [apply rle_refl|]. intros [k2 pl]. destruct pl; cbn [run_pplan]; try apply rle_refl.
    apply rle_bind; [apply Hpes|]. intros [k3 t3]. apply rle_refl.
Qed.
End Mono.
Lemma event_mono : forall f f' k c p t, f <= f' -> rle (process_event f k c p t) (process_event f' k c p t).
Proof.
  induction f as [|f IH]; intros f' k c p t Hf; [now left|]. destruct f' as [|f']; [lia|].
  cbn [process_event]. apply pe_F_mono.
  - intros. apply IH. lia.
  - intros. apply loop_mono; [|lia]. intros. apply IH. lia.
Qed.
Lemma events_mono f f' k evs t ts : f <= f' ->
  rle (pe_loop (process_event f) f k evs t ts) (pe_loop (process_event f') f' k evs t ts).
Proof. intros H. apply loop_mono; auto. intros. now apply event_mono. Qed.
Lemma rle_fin {A} (r r' : res A) : rle r r' -> fin r -> r = r'.
Proof. intros [->| ->] H; auto. now destruct H. Qed.

(* ---- the potential never grows ------------------------------------------------------------------ *)
Definition DD (k : kbd) : nat := S (length (c_descs (k_cfg k))).
Definition mu (k : kbd) (n : nat) : nat :=
  wt (k_pend k) + S (DD k) * (length (p_queue (k_pend k)) + cl k + n).
Definition resolving (k : kbd) : Prop := h_state (k_chord k) = CsResolving.

Lemma mu_le k n m : n <= m -> mu k n <= mu k m.
Proof. unfold mu. nia. Qed.
Lemma mu_add k n m : mu k (n + m) = mu k n + S (DD k) * m.
Proof. unfold mu. nia. Qed.
Lemma cl_chord k k' : k_cfg k' = k_cfg k -> k_chord k' = k_chord k -> cl k' = cl k.
Proof. unfold cl, extra, mkeys, layer_at. now intros -> ->. Qed.
Definition down (k : kbd) (n : nat) (k' : kbd) (m : nat) : Prop :=
  mu k' m <= mu k n /\ (resolving k -> resolving k') /\ k_cfg k' = k_cfg k.
Lemma down_trans a n b m c p : down a n b m -> down b m c p -> down a n c p.
Proof. intros [A1 [A2 A3]] [B1 [B2 B3]]. split; [lia|]. split; [auto|congruence]. Qed.
Lemma down_add a n b m p : down a n b m -> down a (n + p) b (m + p).
Proof.
  intros [A1 [A2 A3]]. split; auto. rewrite !mu_add. unfold DD. rewrite A3. unfold DD in *. lia.
Qed.
Lemma down_less a n b m m' : m' <= m -> down a n b m -> down a n b m'.
Proof. intros L [A1 [A2 A3]]. split; auto. pose proof (mu_le b _ _ L). lia. Qed.
Lemma down_refl a n : down a n a n. Proof. split; auto. Qed.

Lemma down_pending k code pressed time k' pl : acyclic (k_cfg k) ->
  pending_plan k code pressed time = Ok (k', pl) ->
  match pl with
  | PPass => k' = k
  | PTaken => down k (w code) k' 0
  | PReplay evs => mu k' (nz evs) < mu k (w code) /\ (resolving k -> resolving k') /\ k_cfg k' = k_cfg k
  end.
Proof.
  intros Hc H. apply pending_cost in H as [A1 [A2 [A3 A4]]]; auto.
  assert (C : cl k' = cl k) by now apply cl_chord. unfold down, resolving. rewrite A1.
  destruct pl; auto.
  - destruct A4 as [B1 B2]. split; [|auto]. unfold mu, DD. rewrite A3, B1, C. nia.
  - destruct A4 as [B1 [B2 B3]]. split; [|auto]. unfold mu, DD. rewrite A3, B2, C. cbn [length].
    pose proof (nz_le evs). nia.
Qed.
Lemma down_rest k code pressed time k' : acyclic (k_cfg k) -> rest_step k code pressed time = Ok k' ->
  down k (w code) k' 0.
Proof.
  intros Hc H. pose proof (rest_frame _ _ _ _ _ H) as [F1 [_ [F3 [_ [F5 _]]]]]. apply rest_cost in H; auto.
  assert (C : cl k' = cl k) by now apply cl_chord. unfold down, resolving. rewrite F3. split; [|auto].
  unfold mu, DD in *. rewrite F1, F5, C. destruct H as [-> |H]; nia.
Qed.
Lemma down_chord k code pressed time k' pl : chord_plan k code pressed time = Ok (k', pl) ->
  k_cfg k' = k_cfg k /\
  match pl with
  | PlanPass => down k (w code) k' (w code)
  | PlanTaken => down k (w code) k' 0
  | PlanRelease i => down k (w code) k' 1 /\ h_state (k_chord k') = h_state (k_chord k) /\ ak k' < ak k
  | PlanReplay _ _ => mu k' (plan_events pl) <= mu k (w code) /\ resolving k' /\ ~ resolving k
  end.
Proof.
  intros H. apply chord_cost in H as [A1 [A2 A3]]. split; [exact A2|].
  unfold down, resolving, mu, DD. rewrite A1, A2.
  destruct pl as [| |i|p e].
  - destruct A3 as [B1 B2]. split; [|auto]. nia.
  - destruct A3 as [B1 B2]. split; [|auto]. nia.
  - destruct A3 as [B1 [B2 [B3 B4]]]. rewrite B2, B3. split; [|auto]. split; [|auto]. nia.
  - destruct A3 as [B1 [B2 B3]]. split; [|auto].
    assert (E : cl k' = 0) by (unfold cl; now rewrite B2). rewrite E. nia.
Qed.
Lemma down_time k n time k' t : calculate_main_loop_timeout k time = (k', t) -> down k n k' n.
Proof.
  unfold calculate_main_loop_timeout. intros H. apply pair_equal_spec in H as [<- _].
  split; [apply le_n|]. split; auto.
Qed.

Lemma chord_code_w i : w (chord_code i) = 1.
Proof. unfold w, chord_code, K_CHORD_1. destruct (N.eqb_spec (197 + N.of_nat i) 0); auto; lia. Qed.
Lemma ev_eta e : mkKev (ev_code e) (ev_pressed e) (ev_time e) = e. Proof. now destruct e. Qed.

Lemma down_loop pe : (forall k c p t k' t', acyclic (k_cfg k) -> pe k c p t = Ok (k', t') -> down k (w c) k' 0) ->
  forall fuel k evs t ts k' t', acyclic (k_cfg k) -> pe_loop pe fuel k evs t ts = Ok (k', t') -> down k (nz evs) k' 0.
Proof.
  intros Hpe. induction fuel as [|fuel IH]; intros k evs t ts k' t' Hc H; destruct evs as [|ev rest]; cbn [pe_loop] in H.
  1, 3: apply Ok_inj in H; apply pair_equal_spec in H as [<- _]; apply down_refl.
  - discriminate.
  - destruct (_ && _); bstep H r1 E1; destruct r1 as [k1 t1]; apply Hpe in E1; auto;
      pose proof E1 as [_ [_ Ec]]; apply IH in H; try (now rewrite Ec).
    + eapply down_trans; [|exact H]. exact (down_add _ _ _ _ (nz (ev :: rest)) E1).
    + rewrite nz_cons. eapply down_trans; [|exact H]. exact (down_add _ _ _ _ (nz rest) E1).
Qed.
Lemma down_event : forall fuel k c p t k' t', acyclic (k_cfg k) ->
  process_event fuel k c p t = Ok (k', t') -> down k (w c) k' 0.
Proof.
  induction fuel as [|fuel IH]; intros k c p t k' t' Hc H; [discriminate|].
  cbn [process_event] in H. rewrite process_event_plan in H. pose proof (down_loop _ IH) as HL.
  bstep H rb E. destruct rb as [k1 b1].
  assert (Hk1 : down k (w c) k1 (if b1 then 0 else w c)).
  { bstep E rp Ep. destruct rp as [k0 pl]. apply down_chord in Ep as [C0 Ep].
    destruct pl as [| |i|press rest]; cbn [run_plan] in E.
    - apply Ok_inj in E. injection E as <- <-. exact Ep.
    - apply Ok_inj in E. injection E as <- <-. exact Ep.
    - bstep E r2 E2. destruct r2 as [k2 t2]. apply Ok_inj in E. injection E as <- <-.
      apply IH in E2; [|now rewrite C0]. rewrite chord_code_w in E2. eapply down_trans; [apply Ep|exact E2].
    - destruct Ep as [B1 [B2 B3]]. bstep E k2 E2. destruct rest as [evs|]; [|discriminate E].
      bstep E r3 E3. destruct r3 as [k3 t3]. apply Ok_inj in E. injection E as <- <-. cbn [plan_events] in B1.
      assert (D2 : down k0 (match press with Some _ => 1 | None => 0 end + length evs) k2 (length evs)).
      { destruct press as [i|].
        - bstep E2 r4 E4. destruct r4 as [k4 t4]. apply Ok_inj in E2. subst k4.
          apply IH in E4; [|now rewrite C0]. rewrite chord_code_w in E4. exact (down_add _ _ _ _ (length evs) E4).
        - apply Ok_inj in E2. subst k2. apply down_refl. }
      pose proof D2 as [_ [D2r D2c]]. apply HL in E3; [|now rewrite D2c, C0].
      assert (D3 : down k2 (length evs) k3 0).
      { destruct E3 as [X1 X2]. split; [|exact X2]. pose proof (mu_le k2 _ _ (nz_le evs)). lia. }
      destruct (down_trans _ _ _ _ _ _ D2 D3) as [M1 [M2 M3]].
      split; [|split; [intros X; contradiction|exact (eq_trans M3 C0)]].
      assert (M4 : mu (set_cstate CsInactive k3) 0 <= mu k3 0).
      { unfold mu. change (cl (set_cstate CsInactive k3)) with 0. unfold DD. cbn [k_pend k_cfg set_cstate set_k_chord]. nia. }
      lia. }
  pose proof Hk1 as [_ [_ C1]]. destruct b1.
  { apply Ok_inj in H. eapply down_trans; [exact Hk1|]. eapply down_time; exact H. }
  unfold after_chord in H. bstep H rb E2. destruct rb as [k2 b2]. bstep E2 rp Ep. destruct rp as [k0 pl].
  apply down_pending in Ep; [|now rewrite C1]. destruct pl as [| |evs]; cbn [run_pplan] in E2.
  - apply Ok_inj in E2. injection E2 as <- <-. subst k0. bstep H k5 E5. apply Ok_inj in H.
    eapply down_trans; [exact Hk1|]. eapply down_trans; [eapply down_rest; [now rewrite C1|exact E5]|].
    eapply down_time; exact H.
  - apply Ok_inj in E2. injection E2 as <- <-. apply Ok_inj in H.
    eapply down_trans; [exact Hk1|]. eapply down_trans; [exact Ep|]. eapply down_time; exact H.
  - bstep E2 r4 E4. destruct r4 as [k4 t4]. apply Ok_inj in E2. injection E2 as <- <-. apply Ok_inj in H.
    destruct Ep as [P1 [P2 P3]]. apply HL in E4; [|now rewrite P3, C1].
    eapply down_trans; [exact Hk1|]. eapply down_trans; [|eapply down_time; exact H].
    eapply down_trans; [|exact E4]. split; [lia|auto].
Qed.

(* ---- termination ------------------------------------------------------------------------------------ *)
Definition halts (k : kbd) (c : N) (p : bool) (t : Z) : Prop := exists f, fin (process_event f k c p t).
Definition halts_loop (k : kbd) (evs : list kev) (t ts : Z) : Prop :=
  exists f, fin (pe_loop (process_event f) f k evs t ts).

(* halting with more fuel *)
Lemma fin_more f f' k c p t : f <= f' -> fin (process_event f k c p t) ->
  process_event f' k c p t = process_event f k c p t.
Proof. intros H F. symmetry. apply rle_fin; auto. now apply event_mono. Qed.
Lemma fin_loop_more f g g' k evs t ts : f <= g -> f <= g' -> fin (pe_loop (process_event f) f k evs t ts) ->
  pe_loop (process_event g) g' k evs t ts = pe_loop (process_event f) f k evs t ts.
Proof.
  intros H H' F. symmetry. apply rle_fin; auto. apply loop_mono; auto. intros. now apply event_mono.
Qed.
Lemma halts_step k c p tm (next : kbd -> Z -> list kev * Z * Z) (F : nat -> res (kbd * Z)) :
  (forall f, F (S f) = ('(k1, t) <- process_event (S f) k c p tm ;;
     let '(evs, t', ts') := next k1 t in pe_loop (process_event (S f)) f k1 evs t' ts')) ->
  halts k c p tm ->
  (forall f k1 t, process_event f k c p tm = Ok (k1, t) ->
     let '(evs, t', ts') := next k1 t in halts_loop k1 evs t' ts') ->
  exists f, fin (F f).
Proof.
  intros HF [f1 F1] Hn. destruct (process_event f1 k c p tm) as [[k1 t1]| | |] eqn:E1.
  - specialize (Hn _ _ _ E1). destruct (next k1 t1) as [[evs t'] ts'] eqn:En.
    destruct Hn as [f2 F2]. exists (S (Nat.max f1 f2)). rewrite HF.
    rewrite (fin_more f1) by (rewrite ?E1; auto; lia). rewrite E1. cbn [bind]. rewrite En.
    now rewrite (fin_loop_more f2) by (auto; lia).
  - exists (S f1). rewrite HF, (fin_more f1), E1 by (rewrite ?E1; auto; lia). cbn [bind]. auto.
  - exists (S f1). rewrite HF, (fin_more f1), E1 by (rewrite ?E1; auto; lia). cbn [bind]. auto.
  - now destruct F1.
Qed.

Section Loop.
Variable B : kbd -> nat -> Prop.
Hypothesis B_less : forall k n m, m <= n -> B k n -> B k m.
Hypothesis B_down : forall k n k' m p, down k n k' m -> B k (n + p) -> B k' (m + p).
Hypothesis B_halts : forall k c p t, acyclic (k_cfg k) -> B k (w c) -> halts k c p t.
Lemma loop_halts : forall evs k t ts, acyclic (k_cfg k) -> B k (nz evs) -> halts_loop k evs t ts.
Proof.
  induction evs as [|ev rest IH].
  - intros k t ts _ _. exists 1. cbn [pe_loop]. auto.
  - assert (He : forall k t ts, acyclic (k_cfg k) -> B k (nz (ev :: rest)) ->
              (0 <? t)%Z && (ts <=? ev_time ev)%Z = false -> halts_loop k (ev :: rest) t ts).
    { intros k t ts Hc Hb Et. rewrite nz_cons in Hb.
      eapply (halts_step k (ev_code ev) (ev_pressed ev) (ev_time ev)
                (fun _ t1 => (rest, t1, (ev_time ev + t1)%Z))).
      - intros f. cbn [pe_loop]. rewrite Et. reflexivity.
      - apply B_halts; auto. eapply B_less; [|exact Hb]. lia.
      - intros f k1 t1 E1. cbv beta iota. pose proof (down_event _ _ _ _ _ _ _ Hc E1) as D1.
        apply IH; [destruct D1 as [_ [_ ->]]; exact Hc|]. exact (B_down _ _ _ _ (nz rest) D1 Hb). }
    intros k t ts. remember (Z.to_nat (ev_time ev + 1 - ts)) as n eqn:En. revert k t ts En.
    induction n as [n IHn] using lt_wf_ind. intros k t ts En Hc Hb.
    destruct ((0 <? t)%Z && (ts <=? ev_time ev)%Z) eqn:Et; [|now apply He].
    eapply (halts_step k 0%N false ts (fun _ t1 => (ev :: rest, t1, (ts + t1)%Z))).
    + intros f. cbn [pe_loop]. rewrite Et. reflexivity.
    + apply B_halts; auto. eapply B_less; [|exact Hb]. cbn. lia.
    + intros f k1 t1 E1. cbv beta iota. pose proof (down_event _ _ _ _ _ _ _ Hc E1) as D1.
      assert (C1 : acyclic (k_cfg k1)) by (destruct D1 as [_ [_ ->]]; exact Hc).
      pose proof (B_down _ _ _ _ (nz (ev :: rest)) D1 Hb) as Hb1. cbn [Nat.add] in Hb1.
      destruct (Z.ltb_spec 0 t1).
      * apply andb_true_iff in Et as [_ Et]. eapply IHn; [|reflexivity|exact C1|exact Hb1]. lia.
      * apply He; auto. lia.
Qed.
End Loop.

Lemma step_halts N k c p t : acyclic (k_cfg k) -> mu k (w c) <= N ->
  (forall k' c p t, acyclic (k_cfg k') -> mu k' (w c) < N -> halts k' c p t) ->
  (forall k' c p t, acyclic (k_cfg k') -> mu k' (w c) <= N -> (resolving k <-> resolving k') -> ak k' < ak k -> halts k' c p t) ->
  (~ resolving k -> forall k' c p t, acyclic (k_cfg k') -> mu k' (w c) <= N -> resolving k' -> halts k' c p t) ->
  halts k c p t.
Proof.
  intros Hc Hm H1 H2 H3. unfold halts.
  assert (HF : forall f, process_event (S f) k c p t =
    ('(k1, b1) <- bind (chord_plan k c p t)
        (run_plan (process_event f) (fun k evs => pe_loop (process_event f) f k evs 0%Z 0%Z) t) ;;
     if b1 : bool then Ok (calculate_main_loop_timeout k1 t)
     else after_chord (fun k evs => pe_loop (process_event f) f k evs 0%Z 0%Z) k1 c p t)).
  { intros f. cbn [process_event]. apply process_event_plan. }
  pose proof (fin_chord k c p t) as Fc. destruct (chord_plan k c p t) as [[k1 pl]| | |] eqn:Ec.
  2: { exists 1. rewrite HF. cbn [bind]. auto. }
  2: { exists 1. rewrite HF. cbn [bind]. auto. }
  2: { now destruct Fc. }
  clear Fc. apply down_chord in Ec as [C1 Ec].
  destruct pl as [| |i|press rest].
  - (* pass *)
    assert (Hc1 : acyclic (k_cfg k1)) by now rewrite C1. destruct Ec as [M1 [R1 _]].
    assert (HG : forall f, process_event (S f) k c p t
              = after_chord (fun k evs => pe_loop (process_event f) f k evs 0%Z 0%Z) k1 c p t).
    { intros f. rewrite HF. cbn [bind run_plan]. reflexivity. }
    clear HF. unfold after_chord in HG.
    pose proof (fin_pending_plan k1 c p t Hc1) as Fp. destruct (pending_plan k1 c p t) as [[k2 pp]| | |] eqn:Ep.
    2: { exists 1. rewrite HG. cbn [bind]. auto. }
    2: { exists 1. rewrite HG. cbn [bind]. auto. }
    2: { now destruct Fp. }
    apply down_pending in Ep; auto. destruct pp as [| |evs]; cbn [bind run_pplan] in HG.
    + subst k2. pose proof (fin_rest k1 c p t Hc1) as Fr. exists 1. rewrite HG. apply fin_bind; auto.
    + exists 1. rewrite HG. auto.
    + destruct Ep as [M2 [R2 C2]].
      assert (Hl : halts_loop k2 evs 0 0).
      { apply (loop_halts (fun k' n => mu k' n < N)).
        - intros k' n m L Hb. pose proof (mu_le k' _ _ L). lia.
        - intros a n b m q D Hb. apply (down_add _ _ _ _ q) in D as [D _]. lia.
        - intros k' c' p' t' Hc' Hb. now apply H1.
        - now rewrite C2.
        - lia. }
      destruct Hl as [f Hf]. exists (S f). rewrite HG. apply fin_bind; [|intros [k3 b3] E3; destruct b3; auto].
      * apply fin_bind; [exact Hf|]. intros [k4 t4] _. auto.
      * apply fin_bind; [|auto]. bstep E3 r4 E4. destruct r4. discriminate.
  - exists 1. rewrite HF. cbn [bind run_plan]. auto.
  - destruct Ec as [[M1 _] [S1 A1]].
    assert (Hh : halts k1 (chord_code i) false t).
    { apply H2; auto; [now rewrite C1|rewrite chord_code_w; lia|]. unfold resolving. now rewrite S1. }
    destruct Hh as [f Hf]. exists (S f). rewrite HF. cbn [bind run_plan]. apply fin_bind.
    + apply fin_bind; [exact Hf|]. intros [k4 t4] _. auto.
    + intros [k3 b3] E3. bstep E3 r4 E4. destruct r4. apply Ok_inj in E3. injection E3 as <- <-. auto.
  - destruct Ec as [M1 [R1 N1]]. specialize (H3 N1). assert (Hc1 : acyclic (k_cfg k1)) by now rewrite C1.
    destruct rest as [evs|].
    2: { assert (Hp : exists f, fin (match press with
                 | None => Ok k1
                 | Some i => '(k2, _) <- process_event f k1 (chord_code i) true (h_last (k_chord k1)) ;; Ok k2 end)).
         { destruct press as [i|]; [|exists 0; auto].
           destruct (H3 k1 (chord_code i) true (h_last (k_chord k1))) as [f Hf]; auto.
           - rewrite chord_code_w. cbn [plan_events Nat.add] in M1. lia.
           - exists f. apply fin_bind; auto. intros [k2 t2] _. auto. }
         destruct Hp as [f Hf]. exists (S f). rewrite HF. cbn [bind run_plan]. apply fin_bind.
         - apply fin_bind; [exact Hf|auto].
         - intros [k3 b3] E3. bstep E3 r4 E4. discriminate. }
    cbn [plan_events] in M1.
    assert (Hloop : forall k2, resolving k2 -> acyclic (k_cfg k2) -> mu k2 (length evs) <= N -> halts_loop k2 evs 0 0).
    { intros k2 R2 Hc2 M2. apply (loop_halts (fun k' n => mu k' n <= N /\ resolving k')).
      - intros k' n m L [Hb Hr]. pose proof (mu_le k' _ _ L). split; [lia|auto].
      - intros a n b m q D [Hb Hr]. apply (down_add _ _ _ _ q) in D as [D [D2 _]]. split; [lia|auto].
      - intros k' c' p' t' Hc' [Hb Hr]. now apply H3.
      - exact Hc2.
      - split; auto. pose proof (mu_le k2 _ _ (nz_le evs)). lia. }
    assert (Hp : exists f2 k2, (forall f, f2 <= f -> match press with
                 | None => Ok k1
                 | Some i => '(k2, _) <- process_event f k1 (chord_code i) true (h_last (k_chord k1)) ;; Ok k2 end = k2)
                 /\ fin k2 /\ forall x, k2 = Ok x -> halts_loop x evs 0 0).
    { destruct press as [i|].
      - destruct (H3 k1 (chord_code i) true (h_last (k_chord k1))) as [f Hf]; auto.
        { rewrite chord_code_w. pose proof (mu_le k1 1 (1 + length evs) ltac:(lia)). lia. }
        exists f. eexists. split; [intros g Hg; rewrite (fin_more f g) by auto; reflexivity|].
        split; [apply fin_bind; auto; intros [k2 t2] _; auto|].
        intros x Hx. bstep Hx r4 E4. destruct r4 as [k4 t4]. apply Ok_inj in Hx. subst k4.
        apply down_event in E4; auto. rewrite chord_code_w in E4.
        apply (down_add _ _ _ _ (length evs)) in E4 as [D1 [D2 D3]]. apply Hloop; auto; [now rewrite D3|change (0 + length evs) with (length evs) in D1; lia].
      - exists 0, (Ok k1). split; auto. split; auto. intros x Hx. apply Ok_inj in Hx. subst x. apply Hloop; auto. cbn [Nat.add] in M1. lia. }
    destruct Hp as [f2 [k2 [P1 [P2 P3]]]].
    destruct k2 as [x| | |].
    + destruct (P3 x eq_refl) as [f3 Hf3]. exists (S (Nat.max f2 f3)). rewrite HF. cbn [bind run_plan].
      rewrite P1 by lia. cbn [bind]. rewrite (fin_loop_more f3) by (auto; lia).
      apply fin_bind; [apply fin_bind; [exact Hf3|intros [k4 t4] _; auto]|].
      intros [k3 b3] E3. bstep E3 r4 E4. destruct r4. apply Ok_inj in E3. injection E3 as <- <-. auto.
    + exists (S f2). rewrite HF. cbn [bind run_plan]. rewrite P1 by lia. cbn [bind]. auto.
    + exists (S f2). rewrite HF. cbn [bind run_plan]. rewrite P1 by lia. cbn [bind]. auto.
    + now destruct P2.
Qed.

Theorem event_halts k c p t : acyclic (k_cfg k) -> halts k c p t.
Proof.
  remember (mu k (w c)) as N eqn:EN. assert (L : mu k (w c) <= N) by lia. clear EN. revert k c p t L.
  induction N as [N IH] using lt_wf_ind. intros k0 c0 p0 t0 L0 Hc0.
  assert (H1 : forall k' c p t, acyclic (k_cfg k') -> mu k' (w c) < N -> halts k' c p t).
  { intros k' c p t Hc Hl. eapply IH; [exact Hl| |exact Hc]. lia. }
  assert (HR : forall k c p t, acyclic (k_cfg k) -> mu k (w c) <= N -> resolving k -> halts k c p t).
  { intros k c p t. remember (ak k) as a eqn:Ea. revert k c p t Ea. induction a as [a IHa] using lt_wf_ind.
    intros k c p t Ea Hc L R. apply (step_halts N); auto.
    - intros k' c' p' t' Hc' L' R' A'. apply (IHa (ak k')); auto; [lia|tauto].
    - intros X. now destruct X. }
  revert L0 Hc0. remember (ak k0) as a eqn:Ea. revert k0 c0 p0 t0 Ea. induction a as [a IHa] using lt_wf_ind.
  intros k c p t Ea L Hc. apply (step_halts N); auto.
  intros k' c' p' t' Hc' L' R' A'. apply (IHa (ak k')); auto; lia.
Qed.
Theorem events_halt k evs : acyclic (k_cfg k) -> exists f, fin (kbd_process_events f k evs).
Proof.
  intros Hc. apply (loop_halts (fun _ _ => True)); auto. intros. now apply event_halts.
Qed.
