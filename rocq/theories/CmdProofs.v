(* Which actions run shell commands. *)
From Verif Require Import Base Lib Keys Types MacroExec Kbd Config Steps Hist SpecTrace SpecMods SpecLookup
  SpecHist SpecActions SpecKept TraceProofs ModsProofs LookupProofs Engine SpecWf Wf ActProofs StepProofs OneProofs
  CacheProofs Inv ClassInv ParseWf WfHist KeptProofs.

Definition ncmd (k k' : kbd) : Prop := commands (k_out k') = commands (k_out k).
Lemma ncmd_refl k : ncmd k k. Proof. reflexivity. Qed.
Lemma ncmd_trans a b c : ncmd a b -> ncmd b c -> ncmd a c.
Proof. unfold ncmd. congruence. Qed.
Lemma ncmd_fold {B} (f : kbd -> B -> kbd) l k : (forall k b, ncmd k (f k b)) -> ncmd k (fold_left f l k).
Proof. intros H. revert k; induction l; cbn [fold_left]; intros; [apply ncmd_refl|]. eapply ncmd_trans; [apply H|auto]. Qed.
Lemma send_key_ncmd k c p : ncmd k (send_key k c p).
Proof.
  unfold send_key. destruct (_ || _); [apply ncmd_refl|]. destruct p; cbn [k_ks set_k_last_out];
    match goal with |- ncmd _ (if ?b then _ else _) => destruct b end; reflexivity.
Qed.
Lemma clear_mod_ncmd inh k c : ncmd k (clear_mod inh k c).
Proof.
  unfold clear_mod. destruct (_ && _); [|apply send_key_ncmd].
  eapply ncmd_trans; [apply send_key_ncmd|]. eapply ncmd_trans; [apply send_key_ncmd|]. apply send_key_ncmd.
Qed.
Lemma update_mods_ncmd inh k e m : ncmd k (update_mods inh k e m).
Proof.
  apply ncmd_fold. intros k0 [mask c]. unfold set_mod1.
  repeat match goal with |- ncmd _ (if ?b then _ else _) => destruct b end;
    auto using ncmd_refl, send_key_ncmd, clear_mod_ncmd.
Qed.
Definition not_cmd (o : oev) : bool := match o with OCmd _ => false | _ => true end.
Lemma commands_app o r : forallb not_cmd o = true -> commands (o ++ r) = commands r.
Proof.
  induction o as [|x o IH]; cbn [forallb app commands]; intros H; auto. apply andb_true_iff in H as [H1 H2].
  destruct x; try discriminate H1; auto.
Qed.
Lemma mexec_not_cmd t m : forall h, forallb not_cmd (mexec t h m) = true.
Proof.
  induction m as [|e m IH]; cbn [mexec]; intros h; auto.
  rewrite !forallb_app, IH, andb_true_r. apply andb_true_iff. split.
  - apply forallb_forall. intros o Ho. destruct (m_type e).
    + unfold mexec_keyseq in Ho. rewrite !in_app_iff in Ho.
      destruct Ho as [Ho|[Ho|[Ho|Ho]]].
      * apply in_map_iff in Ho as [[? ?] [<- _]]. reflexivity.
      * destruct (_ && _); [|contradiction]. destruct Ho as [<-|[]]; reflexivity.
      * destruct Ho as [<-|[<-|[]]]; reflexivity.
      * apply in_map_iff in Ho as [[? ?] [<- _]]. reflexivity.
    + destruct Ho as [<-|[]]; reflexivity.
    + destruct h as [es|]; [|contradiction]. apply in_map_iff in Ho as [? [<- _]]. reflexivity.
    + apply in_flat_map in Ho as [c [_ Ho]]. destruct Ho as [<-|[<-|[]]]; reflexivity.
    + destruct Ho as [<-|[]]; reflexivity.
  - destruct (negb _); auto.
Qed.
Lemma execute_macro_ncmd k dl m : ncmd k (execute_macro k dl m).
Proof.
  unfold execute_macro.
  assert (G : ncmd k (emits (macro_execute m (c_macro_seq_timeout (k_cfg k))) (update_mods false k (Some dl) 0%N))).
  { eapply ncmd_trans; [apply update_mods_ncmd|]. unfold ncmd. cbn [emits k_out set_k_out].
    apply commands_app, forallb_forall. intros x Hx. apply in_rev in Hx.
    pose proof (mexec_not_cmd (c_macro_seq_timeout (k_cfg k)) m None) as Hn.
    rewrite forallb_forall in Hn. now apply Hn. }
  destruct m as [|[[] d] [|? ?]]; auto.
  eapply ncmd_trans; [apply update_mods_ncmd|]. eapply ncmd_trans; [apply send_key_ncmd|]. apply send_key_ncmd.
Qed.
Lemma activate_ncmd k code i k' : activate_layer k code i = Ok k' -> ncmd k k'.
Proof. unfold activate_layer. intros H. bstep H u E. apply Ok_inj in H. subst. reflexivity. Qed.
Lemma deactivate_ncmd k i k' : deactivate_layer k i = Ok k' -> ncmd k k'.
Proof.
  unfold deactivate_layer. intros H. bstep H u E. destruct (_ =? 0)%N; [discriminate H|].
  apply Ok_inj in H. subst. reflexivity.
Qed.
Lemma drop_oneshots_ncmd n : forall k i k', drop_oneshots n k i = Ok k' -> ncmd k k'.
Proof.
  induction n as [|n IH]; cbn [drop_oneshots]; intros k i k' H; [apply Ok_inj in H; subst; apply ncmd_refl|].
  bstep H k1 E. apply IH in H. apply deactivate_ncmd in E. eapply ncmd_trans; [exact E|exact H].
Qed.
Lemma clear_oneshot_layers_ncmd l : forall k k', clear_oneshot_layers l k = Ok k' -> ncmd k k'.
Proof.
  induction l as [|i l IH]; cbn [clear_oneshot_layers]; intros k k' H; [apply Ok_inj in H; subst; apply ncmd_refl|].
  bstep H k1 E. apply drop_oneshots_ncmd in E. apply IH in H. eapply ncmd_trans; [exact E|exact H].
Qed.
Lemma clear_oneshot_ncmd k k' : clear_oneshot k = Ok k' -> ncmd k k'.
Proof.
  unfold clear_oneshot. intros H. bstep H k1 E. apply Ok_inj in H. subst.
  apply clear_oneshot_layers_ncmd in E. exact E.
Qed.
Lemma clear_toggled_ncmd l : forall k k', clear_toggled l k = Ok k' -> ncmd k k'.
Proof.
  induction l as [|i l IH]; cbn [clear_toggled]; intros k k' H; [apply Ok_inj in H; subst; apply ncmd_refl|].
  bstep H k1 E. apply IH in H. eapply ncmd_trans; [|exact H]. clear H IH.
  repeat match type of E with (if ?b then _ else _) = _ => destruct b end;
    try (apply Ok_inj in E; subst; apply ncmd_refl).
  apply deactivate_ncmd in E. exact E.
Qed.
Lemma reset_keystate_ncmd k : ncmd k (reset_keystate k).
Proof. apply ncmd_fold. intros k0 i. unfold reset_key. destruct (k_ks k0 _); reflexivity. Qed.
Lemma clear_ncmd k k' : clear k = Ok k' -> ncmd k k'.
Proof.
  unfold clear. intros H. bstep H k1 E1. bstep H k2 E2. apply Ok_inj in H. subst.
  apply clear_oneshot_ncmd in E1. apply clear_toggled_ncmd in E2.
  eapply ncmd_trans; [|apply reset_keystate_ncmd].
  eapply ncmd_trans; eauto.
Qed.
Lemma setlayout_ncmd k i k' : setlayout k i = Ok k' -> ncmd k k'.
Proof.
  unfold setlayout. intros H. bstep H u Eu. bstep H k2 E2. apply clear_ncmd in E2. apply Ok_inj in H. subst k'.
  apply (ncmd_trans k k2); [exact E2|].
  assert (G : ncmd k2 (fold_left drop_layout (seq 1 (nlayers k2 - 1)) k2)).
  { apply ncmd_fold. intros k0 b. unfold drop_layout. destruct (is_layout _); reflexivity. }
  destruct (Nat.eqb i 0); exact G.
Qed.
Lemma schedule_ncmd k t k' : schedule_timeout k t = Ok k' -> ncmd k k'.
Proof. intros H. apply schedule_ok in H. subst. reflexivity. Qed.
Lemma do_swap_ncmd k dl i k' : do_swap k dl i = Ok k' -> ncmd k k'.
Proof.
  unfold do_swap. intros E2. bstep E2 u Eu. bstep E2 u2 Eu2.
  destruct (l_toggled _); [|destruct (negb _); [|destruct (swap_slot _ _ _ _)]].
  - bstep E2 k2 E3. bstep E2 k3 E4. apply Ok_inj in E2. subst.
    eapply ncmd_trans; [|apply update_mods_ncmd].
    apply deactivate_ncmd in E3. apply activate_ncmd in E4. eapply ncmd_trans; [|exact E4]. exact E3.
  - bstep E2 k2 E3. bstep E2 k3 E4. apply Ok_inj in E2. subst.
    eapply ncmd_trans; [|apply update_mods_ncmd].
    apply deactivate_ncmd in E3. apply activate_ncmd in E4. eapply ncmd_trans; [|exact E4]. exact E3.
  - bstep E2 k2 E3. bstep E2 k3 E4. apply Ok_inj in E2. subst.
    eapply ncmd_trans; [|apply update_mods_ncmd].
    apply deactivate_ncmd in E3. apply activate_ncmd in E4. eapply ncmd_trans; [|exact E4]. exact E3.
  - apply Ok_inj in E2. subst. apply ncmd_refl.
Qed.
Lemma pre_macro_ncmd d p dl k k0 : pre_macro d p dl k = Ok k0 -> ncmd k k0.
Proof.
  unfold pre_macro. intros H. destruct p; [|apply Ok_inj in H; subst; apply ncmd_refl].
  destruct d; try (apply Ok_inj in H; subst; apply ncmd_refl);
    bstep H mm E; apply Ok_inj in H; subst; apply execute_macro_ncmd.
Qed.

Definition cmd_free (d : desc) : Prop := forall x, d <> DCommand x.
(* the command run by performing d *)
Definition own_command (k : kbd) (d : desc) (pressed : bool) : list str :=
  match d with DCommand x => if pressed then [nth x (c_cmds (k_cfg k)) []] else [] | _ => [] end.
Lemma own_command_free k d p : cmd_free d -> own_command k d p = [].
Proof. intros H. destruct d; auto. elim (H c). reflexivity. Qed.
Lemma cmd_at_nth k i s : cmd_at k i = Ok s -> s = nth i (c_cmds (k_cfg k)) [].
Proof. unfold cmd_at. intros H. bauto H; auto. Qed.

Lemma pd_cmds : forall fuel k code d dl pressed time k',
  (forall d', In d' (c_descs (k_cfg k)) -> cmd_free d') ->
  process_descriptor fuel k code d dl pressed time = Ok k' ->
  commands (k_out k') = own_command k d pressed ++ commands (k_out k).
Proof.
  induction fuel as [|fuel IH]; intros k code d dl pressed time k' HC H; [discriminate|].
  pose proof (pd_frame _ _ _ _ _ _ _ _ H) as FR.
  cbn [process_descriptor] in H. bstep H k0 E0. bstep H k1 E1. apply Ok_inj in H. subst k'.
  assert (Ec : k_cfg k0 = k_cfg k).
  { apply pre_macro_only in E0 as [l [s [o ->]]]. reflexivity. }
  apply pre_macro_ncmd in E0. unfold ncmd in E0. rewrite <- E0.
  rewrite <- Ec in HC.
  replace (own_command k d pressed) with (own_command k0 d pressed)
    by (unfold own_command; now rewrite Ec).
  assert (HD : forall i ac, desc_at k0 i = Ok ac -> cmd_free ac).
  { intros i ac Ha. apply desc_at_in in Ha as [->|Ha]; [discriminate|auto]. }
  cut (commands (k_out k1) = own_command k0 d pressed ++ commands (k_out k0)); [destruct pressed; auto|].
  clear E0 FR Ec k.
  assert (NC : (forall x, d <> DCommand x) -> ncmd k0 k1 ->
     commands (k_out k1) = own_command k0 d pressed ++ commands (k_out k0)).
  { intros Hd Hn. rewrite own_command_free by exact Hd. exact Hn. }
  destruct d; try (apply NC; [discriminate|]); try (apply Ok_inj in E1; subst; reflexivity).
  - unfold pd_key in E1. bstep E1 k2 E2. apply Ok_inj in E1. subst k1.
    assert (G : ncmd k0 k2).
    { destruct pressed.
      - apply clear_oneshot_ncmd in E2. eapply ncmd_trans; [|exact E2]. eapply ncmd_trans; [|apply send_key_ncmd].
        eapply ncmd_trans; [|apply update_mods_ncmd]. destruct (k_ks k0 code0); [apply send_key_ncmd|apply ncmd_refl].
      - apply Ok_inj in E2. subst. eapply ncmd_trans; [apply send_key_ncmd|]. apply update_mods_ncmd. }
    destruct (_ || _); exact G.
  - unfold pd_oneshot in E1. destruct pressed; [|destruct (k_latch k0)].
    + bstep E1 k2 E2. apply Ok_inj in E1. subst. apply activate_ncmd in E2. eapply ncmd_trans; [exact E2|].
      apply update_mods_ncmd.
    + bstep E1 u Eu. destruct (_ =? 0)%Z; [apply Ok_inj in E1; subst; reflexivity|].
      apply schedule_ncmd in E1. exact E1.
    + bstep E1 k2 E2. apply deactivate_ncmd in E2. apply Ok_inj in E1. subst.
      eapply ncmd_trans; [exact E2|]. apply update_mods_ncmd.
  - unfold pd_oneshot in E1. destruct pressed; [|destruct (k_latch k0)].
    + bstep E1 k2 E2. apply Ok_inj in E1. subst. apply activate_ncmd in E2. eapply ncmd_trans; [exact E2|].
      apply update_mods_ncmd.
    + bstep E1 u Eu. destruct (_ =? 0)%Z; [apply Ok_inj in E1; subst; reflexivity|].
      apply schedule_ncmd in E1. exact E1.
    + bstep E1 k2 E2. apply deactivate_ncmd in E2. apply Ok_inj in E1. subst.
      eapply ncmd_trans; [exact E2|]. apply update_mods_ncmd.
  - unfold pd_layer in E1. bstep E1 k2 E2. apply Ok_inj in E1. subst k1. eapply ncmd_trans; [|apply update_mods_ncmd].
    destruct pressed; eauto using activate_ncmd, deactivate_ncmd.
  - unfold pd_swap in E1. destruct pressed; [|apply Ok_inj in E1; subst; apply ncmd_refl].
    bstep E1 k2 E2. apply Ok_inj in E1. subst. now apply do_swap_ncmd in E2.
  - bstep E1 mm Em. unfold pd_swap in E1. destruct pressed.
    + bstep E1 k2 E2. apply Ok_inj in E1. subst. apply do_swap_ncmd in E2.
      eapply ncmd_trans; [exact E2|apply execute_macro_ncmd].
    + apply Ok_inj in E1. subst. destruct mm as [|[[] dt] [|]]; try apply ncmd_refl;
      eapply ncmd_trans; [apply send_key_ncmd|apply update_mods_ncmd].
  - unfold pd_layer in E1. bstep E1 k2 E2. apply Ok_inj in E1. subst k1. eapply ncmd_trans; [|apply update_mods_ncmd].
    destruct pressed; eauto using activate_ncmd, deactivate_ncmd.
  - destruct pressed; [|apply Ok_inj in E1; subst; apply ncmd_refl]. now apply setlayout_ncmd in E1.
  - destruct pressed; [|apply Ok_inj in E1; subst; apply ncmd_refl]. now apply clear_ncmd in E1.
  - destruct pressed; [|apply Ok_inj in E1; subst; apply ncmd_refl].
    bstep E1 mm Em. bstep E1 k2 E2. apply clear_ncmd in E2. apply Ok_inj in E1. subst.
    eapply ncmd_trans; [exact E2|apply execute_macro_ncmd].
  - bstep E1 ac Ea. apply HD in Ea. destruct pressed.
    + bstep E1 k2 E2. apply Ok_inj in E1. subst. apply activate_ncmd in E2.
      eapply ncmd_trans; [|apply update_mods_ncmd]. exact E2.
    + bstep E1 k2 E2. pose proof (deactivate_cfg _ _ _ E2) as F1.
      apply deactivate_ncmd in E2. set (k3 := update_mods false k2 None 0%N) in *.
      assert (E3 : ncmd k0 k3) by (eapply ncmd_trans; [exact E2|apply update_mods_ncmd]).
      assert (Ec : k_cfg k3 = k_cfg k0).
      { subst k3. destruct (update_mods_only false k2 None 0%N) as [x1 [x2 [x3 ->]]]. exact F1. }
      clearbody k3. clear E2 F1.
      destruct (_ && _) in E1; [|apply Ok_inj in E1; now subst].
      assert (G : forall k1, (k4 <- process_descriptor fuel k3 code ac dl true time ;;
                   process_descriptor fuel k4 code ac dl false time) = Ok k1 -> ncmd k0 k1).
      { clear E1. intros k5 E5. bstep E5 k4 E4.
        pose proof (pd_frame _ _ _ _ _ _ _ _ E4) as [F1 _].
        apply IH in E4; [|now rewrite Ec]. apply IH in E5; [|now rewrite F1, Ec].
        rewrite own_command_free in E4, E5 by exact Ea. unfold ncmd in *. cbn [app] in *. congruence. }
      destruct ac; try (apply G; exact E1).
      bstep E1 mm Em. apply Ok_inj in E1. subst. eapply ncmd_trans; [exact E3|apply execute_macro_ncmd].
  - destruct pressed; [|apply Ok_inj in E1; subst; apply ncmd_refl].
    bstep E1 ac Ea. unfold set_pending in E1. apply schedule_ncmd in E1. exact E1.
  - destruct pressed; [|apply Ok_inj in E1; subst; apply ncmd_refl].
    bstep E1 ac Ea. unfold set_pending in E1. apply schedule_ncmd in E1. exact E1.
  - destruct pressed; [|apply Ok_inj in E1; subst; apply ncmd_refl].
    bstep E1 ac Ea. apply HD in Ea. bstep E1 k2 E2. apply Ok_inj in E1. subst. apply IH in E2; auto.
    rewrite own_command_free in E2 by exact Ea.
    unfold cache_replace_d. destruct (cache_find _ _ _); exact E2.
  - unfold pd_toggle in E1. destruct pressed; [|apply Ok_inj in E1; subst; apply ncmd_refl].
    bstep E1 u Eu. bstep E1 k2 E2. apply clear_oneshot_ncmd in E1. eapply ncmd_trans; [|exact E1].
    eapply ncmd_trans; [|apply update_mods_ncmd].
    destruct (l_toggled _); [apply deactivate_ncmd in E2|apply activate_ncmd in E2]; exact E2.
  - unfold pd_toggle in E1. destruct pressed; [|apply Ok_inj in E1; subst; apply ncmd_refl].
    bstep E1 u Eu. bstep E1 k2 E2. apply clear_oneshot_ncmd in E1. eapply ncmd_trans; [|exact E1].
    eapply ncmd_trans; [|apply update_mods_ncmd].
    destruct (l_toggled _); [apply deactivate_ncmd in E2|apply activate_ncmd in E2]; exact E2.
  - unfold pd_macro in E1. destruct pressed; [|apply Ok_inj in E1; subst; apply ncmd_refl].
    bstep E1 mm Em. bstep E1 k2 E2. apply clear_oneshot_ncmd in E2. apply schedule_ncmd in E1.
    eapply ncmd_trans; [|exact E1]. eapply ncmd_trans; [exact E2|]. apply execute_macro_ncmd.
  - unfold pd_macro in E1. destruct pressed; [|apply Ok_inj in E1; subst; apply ncmd_refl].
    bstep E1 mm Em. bstep E1 k2 E2. apply clear_oneshot_ncmd in E2. apply schedule_ncmd in E1.
    eapply ncmd_trans; [|exact E1]. eapply ncmd_trans; [exact E2|]. apply execute_macro_ncmd.
  - destruct pressed; [|apply Ok_inj in E1; subst; reflexivity].
    bstep E1 cm Em. bstep E1 k2 E2. apply Ok_inj in E1. subst. apply cmd_at_nth in Em. subst cm.
    apply clear_oneshot_ncmd in E2. 
    pose proof (update_mods_ncmd false k2 None 0%N) as U. unfold ncmd in *. rewrite U, E2. reflexivity.
  - destruct pressed; [|apply Ok_inj in E1; subst; apply ncmd_refl].
    bstep E1 ac Ea. bstep E1 ac2 Ea2. unfold set_pending in E1. apply schedule_ncmd in E1. exact E1.
Qed.

Lemma expire_ncmd k t k' : expire_oneshot k t = Ok k' -> ncmd k k'.
Proof.
  unfold expire_oneshot. intros H. destruct (_ && _); [|apply Ok_inj in H; subst; apply ncmd_refl].
  bstep H k1 E1. apply clear_oneshot_ncmd in E1. apply Ok_inj in H. subst.
  eapply ncmd_trans; [exact E1|]. apply update_mods_ncmd.
Qed.
Lemma run_macro_ncmd k c t k' : run_active_macro k c t = Ok k' -> ncmd k k'.
Proof.
  unfold run_active_macro. intros H. destruct (k_amacro k); [|apply Ok_inj in H; subst; apply ncmd_refl].
  destruct (negb _).
  - apply Ok_inj in H; subst. exact (update_mods_ncmd false (set_k_amacro None k) None 0%N).
  - destruct (_ <=? _)%Z; [|apply Ok_inj in H; subst; apply ncmd_refl].
    bstep H mm Em. apply schedule_ncmd in H. eapply ncmd_trans; [|exact H]. apply execute_macro_ncmd.
Qed.
Lemma rest_cmds k code pressed time k' : (forall d', In d' (c_descs (k_cfg k)) -> cmd_free d') ->
  rest_step k code pressed time = Ok k' ->
  commands (k_out k') = commands (k_out k)
  \/ (pressed = true /\ code <> 0%N /\ exists x, commands (k_out k') = nth x (c_cmds (k_cfg k)) [] :: commands (k_out k)).
Proof.
  intros HC H. unfold rest_step in H. bstep H k3 E3. bstep H k4 E4.
  pose proof (expire_frame _ _ _ E3) as [F3 _]. pose proof (run_macro_frame _ _ _ _ E4) as [F4 _].
  apply expire_ncmd in E3. apply run_macro_ncmd in E4.
  assert (E : ncmd k k4) by (eapply ncmd_trans; eauto). unfold ncmd in E. rewrite <- E.
  assert (F : k_cfg k4 = k_cfg k) by congruence. rewrite <- F in *. clear E3 E4 E F3 F4 F.
  unfold handle_key in H. destruct (N.eqb_spec code 0) as [|Hn]; [apply Ok_inj in H; subst; now left|].
  destruct pressed.
  - destruct (cache_get k4 code); [apply Ok_inj in H; subst; now left|].
    destruct (lookup_descriptor k4 code) as [d dl].
    destruct (cache_set _ _ _) as [k5|] eqn:E; [|apply Ok_inj in H; subst; now left].
    apply cache_set_spec in E as [i [e [-> _]]]. apply pd_cmds in H; [|exact HC].
    rewrite H. destruct d; auto. right. repeat split; auto. eexists. reflexivity.
  - destruct (cache_get k4 code); [|apply Ok_inj in H; subst; now left].
    destruct (cache_set _ _ _) as [k5|] eqn:E; [|apply Ok_inj in H; subst; now left].
    apply cache_set_spec in E as [i [e [-> _]]]. apply pd_cmds in H; [|exact HC].
    rewrite H. left. unfold own_command. destruct (ce_d _); reflexivity.
Qed.

Lemma cmd_free_closed : closed cmd_free.
Proof. constructor; unfold cmd_free; intros; try discriminate. Qed.
Lemma reach_no_commands (G : config -> Prop) c k :
  (forall c, G c -> cfg_all cmd_free c) -> reach G c k -> commands (k_out k) = [].
Proof.
  intros HG H. induction H as [clk Hk Hg|k fuel evs k' t Hr IH H|k exp k' ok Hr IH H Hg|k k' Hr IH H].
  - reflexivity.
  - pose proof (reach_alld G cmd_free c k cmd_free_closed HG Hr) as A.
    assert (X : IQ (fun k => alld cmd_free k /\ commands (k_out k) = []) (fun _ => True) k').
    { eapply simple_events; [..|exact H]; auto.
      - intros k0 k1 [A0 H0] C. split; [eapply chord_alld; eauto using cmd_free_closed|].
        destruct C as [q [acs [ts [-> _]]]]. exact H0.
      - intros k0 q a time k1 [A0 H0] Hp Ha Ho Hd.
        assert (Pa : cmd_free a) by (destruct A0 as [_ [_ [_ [A1 A2]]]]; destruct Ha as [->| ->]; auto).
        split; [eapply decide_alld; eauto using cmd_free_closed; apply A0|].
        unfold decide in Hd.
        destruct (cache_set _ _ _) as [k2|] eqn:E.
        + apply cache_set_spec in E as [i [e [-> _]]].
          apply pd_cmds in Hd; [|apply A0]. rewrite Hd, own_command_free by exact Pa. exact H0.
        + apply pd_cmds in Hd; [|apply A0]. rewrite Hd, own_command_free by exact Pa. exact H0.
      - intros k0 c' p t0 k1 [A0 H0] _ Hr1. split; [eapply rest_alld; eauto using cmd_free_closed|].
        unfold rest_step in Hr1. bstep Hr1 k3 E3. bstep Hr1 k4 E4.
        assert (A4 : alld cmd_free k4).
        { apply (alld_cp _ k3); [eapply run_macro_frame; eauto|eapply run_macro_cp; eauto|].
          apply (alld_cp _ k0); [eapply expire_frame; eauto|eapply expire_cp; eauto|exact A0]. }
        apply expire_ncmd in E3. apply run_macro_ncmd in E4. unfold ncmd in *. rewrite <- E3, <- E4 in H0.
        clear E3 E4 A0 k0 k3. unfold handle_key in Hr1.
        destruct (c' =? 0)%N; [apply Ok_inj in Hr1; now subst|]. destruct p.
        + destruct (cache_get k4 c'); [apply Ok_inj in Hr1; now subst|].
          destruct (lookup_descriptor k4 c') as [d' dl'] eqn:El.
          destruct (cache_set _ _ _) as [k5|] eqn:E; [|apply Ok_inj in Hr1; now subst].
          apply cache_set_spec in E as [i [e [-> _]]]. apply pd_cmds in Hr1; [|apply A4].
          rewrite Hr1, own_command_free; [exact H0|]. eapply lookup_alld; eauto using cmd_free_closed.
        + destruct (cache_get k4 c'); [|apply Ok_inj in Hr1; now subst].
          destruct (cache_set _ _ _) as [k5|] eqn:E; [|apply Ok_inj in Hr1; now subst].
          apply cache_set_spec in E as [i [e [-> _]]]. apply pd_cmds in Hr1; [|apply A4].
          rewrite Hr1. unfold own_command. destruct (ce_d _); exact H0.
      - split; auto. split; apply Forall_forall; auto.
      - apply Forall_forall; auto. }
    apply X.
  - apply kbd_eval_shape in H as [c' ->]. exact IH.
  - destruct H; exact IH.
Qed.
