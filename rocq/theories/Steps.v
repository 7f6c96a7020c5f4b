(* Every run of the engine decomposes into elementary steps on the observable
   part of the state (configuration, key table, layer activation, trace).  The
   decomposition is proved once and reused by the trace properties. *)
From Verif Require Import Base Lib Keys Types MacroExec Kbd.

(* k' is k except for bookkeeping that is neither observable nor layer
   activation nor configuration *)
Definition same_obs (k k' : kbd) : Prop :=
  k_cfg k' = k_cfg k /\ k_orig k' = k_orig k /\ k_ks k' = k_ks k /\ k_out k' = k_out k
  /\ k_clock k' = k_clock k
  /\ (forall i, l_active (k_ls k' i) = l_active (k_ls k i))
  /\ (forall i, l_time (k_ls k' i) = l_time (k_ls k i)).

Definition single_keyseq (m : macro) : bool :=
  match m with [mkM MKeySeq _] => true | _ => false end.

Definition cfg_macro (c : config) (m : macro) : Prop := m = [] \/ In m (c_macros c).
Definition cfg_cmd (c : config) (s : str) : Prop := s = [] \/ In s (c_cmds c).

Inductive prim : kbd -> kbd -> Prop :=
| pr_int k k' : same_obs k k' -> prim k k'
| pr_send k c p : prim k (send_key k c p)
| pr_release k c :
    k_ks k c = true ->
    prim k (set_k_ks (fupd (k_ks k) c false) (emit (OKey c false) k))
| pr_macro k m :
    cfg_macro (k_cfg k) m -> single_keyseq m = false ->
    prim k (emits (macro_execute m (c_macro_seq_timeout (k_cfg k))) k)
| pr_cmd k s : cfg_cmd (k_cfg k) s -> prim k (emit (OCmd s) k)
| pr_act k code i k' : activate_layer k code i = Ok k' -> prim k k'
| pr_deact k i k' : deactivate_layer k i = Ok k' -> prim k k'
| pr_droplayout k i : prim k (drop_layout k i)
| pr_setlayout k i :
    prim k (let k1 := set_lsi i (set_l_active 1 (set_l_time 1%Z (k_ls k i))) k in
            emit (OLayer i true (indicator k1)) k1)
| pr_note k i : prim k (emit (OLayer i true (indicator k)) k).

Inductive steps : kbd -> kbd -> Prop :=
| st_refl k : steps k k
| st_step k k1 k2 : prim k k1 -> steps k1 k2 -> steps k k2.

Lemma steps_trans a b c : steps a b -> steps b c -> steps a c.
Proof. induction 1; intros; auto. econstructor; eauto. Qed.
Lemma steps_one a b : prim a b -> steps a b.
Proof. intros. econstructor; eauto. constructor. Qed.
Lemma steps_snoc a b c : steps a b -> prim b c -> steps a c.
Proof. intros. eapply steps_trans; eauto using steps_one. Qed.

Lemma steps_inv (P : kbd -> Prop) :
  (forall k k', prim k k' -> P k -> P k') -> forall k k', steps k k' -> P k -> P k'.
Proof. intros H k k' Hs. induction Hs; eauto. Qed.

Lemma same_obs_refl k : same_obs k k.
Proof. repeat split. Qed.
Lemma same_obs_steps k k' : same_obs k k' -> steps k k'.
Proof. intros. apply steps_one. now constructor. Qed.

Ltac so := apply same_obs_steps; repeat split.

Lemma send_key_steps k c p : steps k (send_key k c p).
Proof. apply steps_one, pr_send. Qed.

Lemma steps_fold {B} (f : kbd -> B -> kbd) l k :
  (forall k b, steps k (f k b)) -> steps k (fold_left f l k).
Proof.
  intros H. revert k; induction l; cbn; intros. constructor.
  eapply steps_trans; eauto.
Qed.

Lemma reset_key_steps k i : steps k (reset_key k i).
Proof.
  unfold reset_key. destruct (k_ks k (N.of_nat i)) eqn:E; [|constructor].
  apply steps_one. now apply pr_release.
Qed.
Lemma reset_keystate_steps k : steps k (reset_keystate k).
Proof. apply steps_fold, reset_key_steps. Qed.

Lemma clear_mod_steps inh k c : steps k (clear_mod inh k c).
Proof.
  unfold clear_mod. destruct (_ && _).
  - eapply steps_trans; [apply send_key_steps|].
    eapply steps_trans; [apply send_key_steps|]. apply send_key_steps.
  - apply send_key_steps.
Qed.
Lemma set_mods_steps inh k m : steps k (set_mods inh k m).
Proof.
  apply steps_fold. intros k0 [mask code]. unfold set_mod1.
  destruct (hasmod mask m), (k_ks k0 code);
    auto using st_refl, send_key_steps, clear_mod_steps.
Qed.
Lemma update_mods_steps inh k e m : steps k (update_mods inh k e m).
Proof. apply set_mods_steps. Qed.

Lemma prim_cfg k k' : prim k k' -> k_cfg k' = k_cfg k /\ k_orig k' = k_orig k.
Proof.
  intros H; destruct H;
    try match goal with H : activate_layer _ _ _ = _ |- _ =>
          unfold activate_layer in H; bauto H end;
    try match goal with H : deactivate_layer _ _ = _ |- _ =>
          unfold deactivate_layer in H; bauto H end; try (split; reflexivity).
  - destruct H; tauto.
  - unfold send_key. destruct (_ || _); auto. destruct p; cbn -[N.eqb];
      match goal with |- context [Bool.eqb ?a ?b] => destruct (Bool.eqb a b) end; auto.
  - unfold drop_layout. destruct (is_layout _); auto.
Qed.
Lemma steps_cfg k k' : steps k k' -> k_cfg k' = k_cfg k /\ k_orig k' = k_orig k.
Proof.
  induction 1; auto. apply prim_cfg in H. intuition congruence.
Qed.

Lemma macro_at_cfg k i m : macro_at k i = Ok m -> cfg_macro (k_cfg k) m.
Proof.
  unfold macro_at. intros H. bauto H. unfold cfg_macro.
  destruct (Nat.ltb_spec i (length (c_macros (k_cfg k)))).
  - right. now apply nth_In.
  - left. now apply nth_overflow.
Qed.
Lemma cmd_at_cfg k i s : cmd_at k i = Ok s -> cfg_cmd (k_cfg k) s.
Proof.
  unfold cmd_at. intros H. bauto H. unfold cfg_cmd.
  destruct (Nat.ltb_spec i (length (c_cmds (k_cfg k)))).
  - right. now apply nth_In.
  - left. now apply nth_overflow.
Qed.

Lemma execute_macro_steps k dl m : cfg_macro (k_cfg k) m -> steps k (execute_macro k dl m).
Proof.
  intros Hm. unfold execute_macro.
  assert (G : single_keyseq m = false ->
    steps k (emits (macro_execute m (c_macro_seq_timeout (k_cfg k)))
                   (update_mods false k (Some dl) 0))).
  { intros Hs. eapply steps_trans; [apply (update_mods_steps false k (Some dl) 0)|].
    destruct (steps_cfg _ _ (update_mods_steps false k (Some dl) 0)) as [E _].
    rewrite <- E. apply steps_one. apply pr_macro; auto. now rewrite E. }
  destruct m as [|[[] data] [|? ?]]; try (apply G; reflexivity).
  eapply steps_trans; [apply update_mods_steps|].
  eapply steps_trans; [apply send_key_steps|]. apply send_key_steps.
Qed.

Lemma deactivate_layer_steps k i k' : deactivate_layer k i = Ok k' -> steps k k'.
Proof. intros. eapply steps_one, pr_deact; eauto. Qed.
Lemma activate_layer_steps k c i k' : activate_layer k c i = Ok k' -> steps k k'.
Proof. intros. eapply steps_one, pr_act; eauto. Qed.

(* changes of toggled / depth are not observable *)
Lemma set_lsi_steps k i l :
  l_active l = l_active (k_ls k i) -> l_time l = l_time (k_ls k i) -> steps k (set_lsi i l k).
Proof.
  intros Ha Ht. so; intros j; cbn; unfold nupd; destruct (Nat.eqb_spec j i); subst; auto.
Qed.

Lemma drop_oneshots_steps n : forall k i k', drop_oneshots n k i = Ok k' -> steps k k'.
Proof.
  induction n; cbn [drop_oneshots]; intros k i k' H; bauto H; [constructor|].
  eapply steps_trans; [eapply deactivate_layer_steps; eauto|].
  eapply steps_trans; [|eapply IHn; eauto]. apply set_lsi_steps; reflexivity.
Qed.
Lemma clear_oneshot_layers_steps l : forall k k', clear_oneshot_layers l k = Ok k' -> steps k k'.
Proof.
  induction l; cbn [clear_oneshot_layers]; intros k k' H; bauto H; [constructor|].
  eapply steps_trans; [eapply drop_oneshots_steps; eauto|]. eauto.
Qed.
Lemma clear_oneshot_steps k k' : clear_oneshot k = Ok k' -> steps k k'.
Proof.
  unfold clear_oneshot. intros H; bauto H.
  eapply steps_trans; [eapply clear_oneshot_layers_steps; eauto|]. so.
Qed.
Lemma clear_toggled_steps l : forall k k', clear_toggled l k = Ok k' -> steps k k'.
Proof.
  induction l; cbn [clear_toggled]; intros k k' H; bauto H; [constructor|].
  eapply steps_trans; [|eauto].
  bauto E; [|constructor].
  eapply steps_trans; [|eapply deactivate_layer_steps; eauto].
  apply set_lsi_steps; reflexivity.
Qed.
Lemma clear_steps k k' : clear k = Ok k' -> steps k k'.
Proof.
  unfold clear. intros H; bauto H.
  eapply steps_trans; [eapply clear_oneshot_steps; eauto|].
  eapply steps_trans; [eapply clear_toggled_steps; eauto|].
  eapply steps_trans; [|apply reset_keystate_steps]. so.
Qed.
Lemma setlayout_steps k i k' : setlayout k i = Ok k' -> steps k k'.
Proof.
  unfold setlayout. intros H; bauto H.
  eapply steps_trans; [eapply clear_steps; eauto|].
  eapply steps_trans.
  { apply (steps_fold drop_layout). intros. apply steps_one, pr_droplayout. }
  destruct (Nat.eqb i 0).
  - apply steps_one, pr_note.
  - apply steps_one, pr_setlayout.
Qed.

Lemma schedule_timeout_steps k t k' : schedule_timeout k t = Ok k' -> steps k k'.
Proof. unfold schedule_timeout. intros H; bauto H. so. Qed.

Lemma set_pending_steps k c dl e b a1 a2 k' : set_pending k c dl e b a1 a2 = Ok k' -> steps k k'.
Proof.
  unfold set_pending. intros H.
  eapply steps_trans; [|eapply schedule_timeout_steps; eauto]. so.
Qed.

Lemma do_swap_steps k dl i k' : do_swap k dl i = Ok k' -> steps k k'.
Proof.
  unfold do_swap. intros H. bauto H.
  - eapply steps_trans; [eapply deactivate_layer_steps; eauto|].
    eapply steps_trans; [apply set_lsi_steps|eapply steps_trans;
      [eapply activate_layer_steps; eauto|eapply steps_trans;
        [apply set_lsi_steps|apply update_mods_steps]]]; reflexivity.
  - eapply steps_trans; [eapply deactivate_layer_steps; eauto|].
    eapply steps_trans; [apply set_lsi_steps|eapply steps_trans;
      [eapply activate_layer_steps; eauto|eapply steps_trans;
        [apply set_lsi_steps|apply update_mods_steps]]]; reflexivity.
  - eapply steps_trans; [|eapply steps_trans; [eapply deactivate_layer_steps; eauto|
      eapply steps_trans; [eapply activate_layer_steps; eauto|apply update_mods_steps]]].
    so.
  - constructor.
Qed.

Lemma cache_replace_steps k c d : steps k (cache_replace_d k c d).
Proof. unfold cache_replace_d. destruct (cache_find _ _ _); [so|constructor]. Qed.

Lemma pd_key_steps k c m dl p t k' : pd_key k c m dl p t = Ok k' -> steps k k'.
Proof.
  unfold pd_key. intros H. bauto1 H.
  assert (G : steps k a).
  { destruct p.
    - eapply steps_trans; [|eapply clear_oneshot_steps; eauto].
      eapply steps_trans; [|apply send_key_steps].
      eapply steps_trans; [|apply update_mods_steps].
      destruct (k_ks k c); [apply send_key_steps|constructor].
    - bauto E. eapply steps_trans; [apply send_key_steps|apply update_mods_steps]. }
  bauto H. eapply steps_trans; [exact G|].
  destruct ((m =? 0)%N || (m =? MOD_SHIFT)%N); [so|constructor].
Qed.

Lemma pd_layer_steps k c i p k' : pd_layer k c i p = Ok k' -> steps k k'.
Proof.
  unfold pd_layer. intros H. bauto1 H. bauto H.
  eapply steps_trans; [|apply update_mods_steps].
  destruct p; eauto using activate_layer_steps, deactivate_layer_steps.
Qed.

Lemma pd_oneshot_steps k c i dl p t k' : pd_oneshot k c i dl p t = Ok k' -> steps k k'.
Proof.
  unfold pd_oneshot. intros H. bauto H.
  - eapply steps_trans; [eapply activate_layer_steps; eauto|].
    eapply steps_trans; [apply update_mods_steps|]. so.
  - apply set_lsi_steps; reflexivity.
  - eapply steps_trans; [|eapply schedule_timeout_steps; eauto].
    match goal with |- steps _ (set_k_oneshot_to _ ?x) => apply (steps_trans _ x) end;
      [apply set_lsi_steps; reflexivity|so].
  - eapply steps_trans; [eapply deactivate_layer_steps; eauto|]. apply update_mods_steps.
Qed.

Lemma pd_macro_steps k m t r dl p time k' : pd_macro k m t r dl p time = Ok k' -> steps k k'.
Proof.
  unfold pd_macro. intros H. bauto H; [|constructor].
  apply macro_at_cfg in E.
  assert (S1 : steps k a0).
  { eapply steps_trans; [|eapply clear_oneshot_steps; eauto]. so. }
  eapply steps_trans; [exact S1|].
  eapply steps_trans; [apply (execute_macro_steps a0 dl a)|].
  { destruct (steps_cfg _ _ S1) as [-> _]. exact E. }
  eapply steps_trans; [|eapply schedule_timeout_steps; eauto]. so.
Qed.

Lemma pd_toggle_steps k c i p k' : pd_toggle k c i p = Ok k' -> steps k k'.
Proof.
  unfold pd_toggle. intros H. destruct p; [|bauto H; constructor].
  bauto1 H. bauto1 H.
  eapply steps_trans; [|eapply clear_oneshot_steps; eauto].
  eapply steps_trans; [|apply update_mods_steps].
  cbv zeta in E0.
  match type of E0 with context [deactivate_layer ?x] => apply (steps_trans _ x) end;
    [apply set_lsi_steps; reflexivity|].
  bauto E0; eauto using activate_layer_steps, deactivate_layer_steps.
Qed.

Lemma pd_swap_steps k i dl mm p k' :
  (forall m, mm = Some m -> cfg_macro (k_cfg k) m) ->
  pd_swap k i dl mm p = Ok k' -> steps k k'.
Proof.
  unfold pd_swap. intros Hm H. destruct p.
  - bauto1 H. injection H as <-. destruct mm; [|eapply do_swap_steps; eauto].
    pose proof (do_swap_steps _ _ _ _ E) as S1.
    eapply steps_trans; [exact S1|]. apply execute_macro_steps.
    destruct (steps_cfg _ _ S1) as [-> _]. auto.
  - injection H as <-.
    destruct mm as [[|[[] d] [|? ?]]|]; try constructor.
    eapply steps_trans; [apply send_key_steps|]. apply update_mods_steps.
Qed.

Lemma pre_macro_steps d p dl k k' : pre_macro d p dl k = Ok k' -> steps k k'.
Proof.
  unfold pre_macro. intros H. bauto H; try constructor;
  apply execute_macro_steps; eapply macro_at_cfg; eauto.
Qed.

Ltac t1 := eapply steps_trans.

Lemma process_descriptor_steps fuel : forall k c d dl p t k',
  process_descriptor fuel k c d dl p t = Ok k' -> steps k k'.
Proof.
  induction fuel as [|fuel IH]; cbn [process_descriptor]; intros k c d dl p t k' H;
    [discriminate|].
  bstep H k0 E0. bstep H k1 E1.
  pose proof (pre_macro_steps _ _ _ _ _ E0) as S0.
  assert (S1 : steps k0 k1).
  { clear E0 S0. destruct d.
    all: try solve
      [ bauto E1; eauto using st_refl, pd_key_steps, pd_layer_steps, pd_oneshot_steps,
          pd_macro_steps, pd_toggle_steps, setlayout_steps, clear_steps, set_pending_steps ].
    - (* swap *) eapply pd_swap_steps; eauto. intros; discriminate.
    - bauto1 E1. eapply pd_swap_steps; eauto. intros m0 Hm0. injection Hm0 as <-.
      eapply macro_at_cfg; eauto.
    - (* clearm *) bauto E1; [|constructor].
      pose proof (clear_steps _ _ E0) as S1.
      t1; [exact S1|]. apply execute_macro_steps.
      destruct (steps_cfg _ _ S1) as [-> _]. eapply macro_at_cfg; eauto.
    - (* overload *) bauto1 E1. destruct p.
      + bauto E1. t1; [|apply update_mods_steps].
        t1; [|eapply activate_layer_steps; eauto]. so.
      + bauto1 E1.
        assert (G : steps k0 (update_mods false a1 None 0)).
        { t1; [eapply deactivate_layer_steps; eauto|apply update_mods_steps]. }
        destruct (_ && _); [|bauto E1; exact G].
        assert (G2 : forall k2, process_descriptor fuel (update_mods false a1 None 0) c a0 dl true t
                          = Ok k2 -> process_descriptor fuel k2 c a0 dl false t = Ok k1 ->
                          steps k0 k1).
        { intros k2 A1 A2. t1; [exact G|]. t1; eauto. }
        destruct a0; try (bstep E1 k2 EE; now apply (G2 k2)).
        bstep E1 mm EE. injection E1 as <-. t1; [exact G|].
        apply execute_macro_steps. eapply macro_at_cfg; eauto.
    - (* overloadi *) bauto E1; [|constructor].
      t1; [eapply IH; eauto|]. apply cache_replace_steps.
    - (* command *) bauto E1; [|constructor].
      t1; [|apply update_mods_steps]. t1; [|eapply clear_oneshot_steps; eauto].
      apply steps_one, pr_cmd. eapply cmd_at_cfg; eauto.
    - injection E1 as <-. so.
    - injection E1 as <-. so. }
  injection H as <-. t1; [exact S0|]. t1; [exact S1|].
  destruct p; [so|constructor].
Qed.

Lemma do_desc_steps k c d dl p t k' : do_desc k c d dl p t = Ok k' -> steps k k'.
Proof. apply process_descriptor_steps. Qed.

Lemma cache_set_steps k c e k' : cache_set k c e = Some k' -> steps k k'.
Proof.
  unfold cache_set. destruct (cache_slot _ _ _ _); [|discriminate].
  intros H; injection H as <-. so.
Qed.

Lemma expire_oneshot_steps k t k' : expire_oneshot k t = Ok k' -> steps k k'.
Proof.
  unfold expire_oneshot. intros H; bauto H; [|constructor].
  t1; [eapply clear_oneshot_steps; eauto|apply update_mods_steps].
Qed.

Lemma run_active_macro_steps k c t k' : run_active_macro k c t = Ok k' -> steps k k'.
Proof.
  unfold run_active_macro. intros H; bauto H; try constructor.
  - t1; [|apply update_mods_steps]. so.
  - t1; [eapply execute_macro_steps; eapply macro_at_cfg; eauto|].
    t1; [|eapply schedule_timeout_steps; eauto]. so.
Qed.

Lemma handle_key_steps k c p t k' : handle_key k c p t = Ok k' -> steps k k'.
Proof.
  unfold handle_key. intros H; bauto H; try constructor;
    (t1; [eapply cache_set_steps; eauto|]; eapply do_desc_steps; eauto).
Qed.

(* ---- the recursive part ---------------------------------------------------- *)
Definition pe_steps (pe : pe_t) : Prop :=
  forall k c p t k' r, pe k c p t = Ok (k', r) -> steps k k'.
Definition pes_steps (pes : pes_t) : Prop :=
  forall k evs k' r, pes k evs = Ok (k', r) -> steps k k'.

Lemma resolve_chord_steps pe pes k k' b :
  pe_steps pe -> pes_steps pes -> resolve_chord pe pes k = Ok (k', b) -> steps k k'.
Proof.
  intros Hpe Hpes. unfold resolve_chord. intros H.
  bstep H r E. destruct r as [k1 off].
  assert (S1 : steps k k1).
  { bauto E; [|so].
    t1; [|eapply Hpe; eauto]. so. }
  destruct (Nat.ltb _ _); [discriminate|].
  bstep H r E2. destruct r as [k3 ?]. injection H as <- <-.
  t1; [exact S1|]. t1; [eapply Hpes; eauto|]. so.
Qed.

Lemma abort_chord_steps pe pes k k' b :
  pe_steps pe -> pes_steps pes -> abort_chord pe pes k = Ok (k', b) -> steps k k'.
Proof.
  intros Hpe Hpes H. unfold abort_chord in H.
  t1; [|eapply resolve_chord_steps; eauto]. so.
Qed.

Lemma enqueue_chord_event_steps k c p t k' : enqueue_chord_event k c p t = Ok k' -> steps k k'.
Proof. unfold enqueue_chord_event. intros H; bauto H; [constructor|so]. Qed.

Lemma check_chord_match_steps k r k' : check_chord_match k = (r, k') -> steps k k'.
Proof.
  unfold check_chord_match. destruct (fold_left _ _ _) as [[best ?] ?].
  destruct best as [[li ci]|]; intros H; injection H as <- <-; [so|constructor].
Qed.

Lemma chord_matched_steps pe pes k r t k' b :
  pe_steps pe -> pes_steps pes -> chord_matched pe pes k r t = Ok (k', b) -> steps k k'.
Proof.
  intros Hpe Hpes H. unfold chord_matched in H.
  assert (S0 : steps k (set_k_chord (set_h_last t (k_chord k)) k)) by so.
  t1; [exact S0|]. clear S0.
  set (k1 := set_k_chord (set_h_last t (k_chord k)) k) in *.
  assert (G : forall s d k2, schedule_timeout (set_cstate s k1) d = Ok k2 -> steps k1 k2).
  { intros s d k2 E. t1; [|eapply schedule_timeout_steps; eauto]. so. }
  destruct r; bauto H; eauto; eapply resolve_chord_steps; eauto.
Qed.

Lemma handle_chord_steps pe pes k c p t k' b :
  pe_steps pe -> pes_steps pes -> handle_chord pe pes k c p t = Ok (k', b) -> steps k k'.
Proof.
  intros Hpe Hpes H. unfold handle_chord in H.
  destruct (if _ : bool then _ else _) as [i|].
  - destruct (existsb _ _); [injection H as <- <-; so|].
    bauto H.
    t1; [|eapply Hpe; eauto]. so.
  - destruct (h_state (k_chord k)).
    + injection H as <- <-. constructor.
    + bstep H k1 E. destruct (check_chord_match k1) as [r k2] eqn:E2.
      t1; [|t1; [eapply enqueue_chord_event_steps; eauto|]]; [so|].
      t1; [eapply check_chord_match_steps; eauto|].
      destruct r; [injection H as <- <-; constructor|..]; eapply chord_matched_steps; eauto.
    + destruct (N.eqb c 0).
      { bauto H; try constructor.
        - t1; [eapply schedule_timeout_steps; eauto|]. so.
        - eapply resolve_chord_steps; eauto.
        - eapply abort_chord_steps; eauto. }
      bstep H k1 E. t1; [eapply enqueue_chord_event_steps; eauto|].
      destruct (negb p); [eapply abort_chord_steps; eauto|].
      destruct (check_chord_match k1) as [r k2] eqn:E2.
      t1; [eapply check_chord_match_steps; eauto|].
      destruct r; [eapply abort_chord_steps; eauto|..]; eapply chord_matched_steps; eauto.
    + destruct (N.eqb c 0).
      { bauto H; try constructor. eapply resolve_chord_steps; eauto. }
      bstep H k1 E. t1; [eapply enqueue_chord_event_steps; eauto|].
      bauto H; try constructor. eapply abort_chord_steps; eauto.
Qed.

Lemma handle_pending_key_steps pes k c p t k' b :
  pes_steps pes -> handle_pending_key pes k c p t = Ok (k', b) -> steps k k'.
Proof.
  intros Hpes H. unfold handle_pending_key in H.
  destruct (N.eqb (p_code (k_pend k)) 0); [injection H as <- <-; constructor|].
  destruct (_ && _); [discriminate|].
  destruct (_ && _); [injection H as <- <-; constructor|].
  destruct (has_op _); [|injection H as <- <-; so].
  bstep H k3 E. bstep H r E2. destruct r as [k4 ?]. injection H as <- <-.
  t1; [|t1; [eapply do_desc_steps; eauto|eapply Hpes; eauto]].
  match goal with |- steps _ (match ?x with _ => _ end) => destruct x eqn:? end.
  - t1; [|eapply cache_set_steps; eauto]. so.
  - so.
Qed.

Lemma calculate_timeout_steps k t k' r :
  calculate_main_loop_timeout k t = (k', r) -> steps k k'.
Proof.
  unfold calculate_main_loop_timeout. intros H; injection H as <- <-. so.
Qed.

Lemma process_event_F_steps pe pes :
  pe_steps pe -> pes_steps pes -> pe_steps (process_event_F pe pes).
Proof.
  intros Hpe Hpes k c p t k' r H. unfold process_event_F in H.
  bstep H x E. destruct x as [k1 b1].
  t1; [eapply handle_chord_steps; eauto|].
  destruct b1; [apply Ok_inj in H; eapply calculate_timeout_steps; eauto|].
  bstep H x E2. destruct x as [k2 b2].
  t1; [eapply handle_pending_key_steps; eauto|].
  destruct b2; [apply Ok_inj in H; eapply calculate_timeout_steps; eauto|].
  bstep H k3 E3. bstep H k4 E4. bstep H k5 E5. apply Ok_inj in H.
  t1; [eapply expire_oneshot_steps; eauto|].
  t1; [eapply run_active_macro_steps; eauto|].
  t1; [eapply handle_key_steps; eauto|]. eapply calculate_timeout_steps; eauto.
Qed.

Lemma pe_loop_steps pe : pe_steps pe -> forall fuel k evs to ts k' r,
  pe_loop pe fuel k evs to ts = Ok (k', r) -> steps k k'.
Proof.
  intros Hpe. induction fuel; intros k evs to ts k' r H; destruct evs; cbn [pe_loop] in H;
    try discriminate; try (injection H as <- <-; constructor).
  destruct (_ && _); bstep H x E; destruct x as [k1 t];
    (t1; [eapply Hpe; eauto|]; eauto).
Qed.

Lemma process_event_steps fuel : pe_steps (process_event fuel).
Proof.
  induction fuel as [|f IH]; cbn [process_event].
  - intros ? ? ? ? ? ? H; discriminate.
  - apply process_event_F_steps; auto.
    intros k evs k' r H. eapply pe_loop_steps; eauto.
Qed.

Theorem kbd_process_events_steps fuel k evs k' r :
  kbd_process_events fuel k evs = Ok (k', r) -> steps k k'.
Proof. apply pe_loop_steps, process_event_steps. Qed.
