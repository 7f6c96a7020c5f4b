(* Keys whose action is decided after the press: what the engine does while one of
   them is undecided, and when the decision falls. *)
From Verif Require Import Base Lib Keys Types MacroExec Kbd Config Engine Hist Steps SpecLookup SpecActions
  SpecHist SpecTerm SpecDefer SpecWf Wf ParseWf ModsProofs ActProofs LookupProofs OneProofs CacheProofs Inv
  ClassInv KeptProofs StepProofs TermProofs TimerProofs Times Retime LiftOk PropTerm.

Lemma aside_pend k : k_pend (aside k) = set_p_code 0%N (set_p_queue [] (k_pend k)).
Proof. reflexivity. Qed.
Lemma sbt_refl k : same_but_timers k k.
Proof. exists (k_chord k), (k_timeouts k). split; [now destruct k|reflexivity]. Qed.
Lemma sbt_trans a b c : same_but_timers a b -> same_but_timers b c -> same_but_timers a c.
Proof.
  intros [q [ts [-> H]]] [q' [ts' [-> H']]]. exists q', ts'. split; [reflexivity|].
  cbn [k_chord set_k_timeouts set_k_chord] in H'. congruence.
Qed.
Lemma let_go_pre k k1 evs k' : same_but_timers k k1 -> let_go k1 evs k' -> let_go k evs k'.
Proof.
  intros H L. destruct L as [k1 k' L|k1 k2 e k3 t rest k' L1 L2 L3].
  - constructor. eapply sbt_trans; eauto.
  - econstructor; [eapply sbt_trans; eauto|exact L2|exact L3].
Qed.

(* ---- the decision --------------------------------------------------------------- *)
Definition queued (q : list kev) (e : kev) : list kev := if (ev_code e =? 0)%N then q else q ++ [e].
Lemma existsb_code q c : existsb (fun e => (ev_code e =? c)%N) q = true <-> exists e, In e q /\ ev_code e = c.
Proof.
  rewrite existsb_exists. split; intros [e [H1 H2]]; exists e; split; auto; now apply N.eqb_eq.
Qed.
Lemma existsb_self q e : existsb (fun e' => (ev_code e' =? ev_code e)%N) (q ++ [e]) = true.
Proof. apply existsb_code. exists e. split; auto. apply in_or_app. right. now left. Qed.
Lemma not_bystander w q e : ~ bystander w q e ->
  ev_code e = 0%N \/ ev_pressed e = true \/ ev_code e = w_key w
  \/ existsb (fun e' => (ev_code e' =? ev_code e)%N) q = true.
Proof.
  intros H. destruct (N.eq_dec (ev_code e) 0) as [|E1]; auto. destruct (ev_pressed e) eqn:E2; auto.
  destruct (N.eq_dec (ev_code e) (w_key w)) as [|E3]; auto. right; right; right.
  destruct (existsb _ q) eqn:E4; auto. elim H. repeat split; auto. intros e' He Hc.
  assert (X : existsb (fun e' => (ev_code e' =? ev_code e)%N) q = true) by (apply existsb_code; eauto). congruence.
Qed.

Section Decision.
Variables (w : waiting) (q : list kev).
Hypothesis Hw : w_key w <> 0%N.
Hypothesis Hq : Forall (fun e => ev_code e <> 0%N) q.
Definition pend_of (q : list kev) : pend :=
  mkPend (w_key w) (w_from w) (w_due w) (beh (w_med w)) q (w_tap w) (w_hold w).

Lemma tick_not_queued : existsb (fun e => (ev_code e =? 0)%N) q = false.
Proof.
  apply not_true_is_false. intros H. apply existsb_code in H as [e [H1 H2]].
  rewrite Forall_forall in Hq. exact (Hq e H1 H2).
Qed.
Lemma action_settled e a : ~ bystander w q e -> settles w q e a ->
  pending_action (pend_of (queued q e)) (ev_code e) (ev_pressed e) (ev_time e) = a.
Proof.
  intros Hb H. unfold pending_action, pend_of, queued. cbn [p_expire p_a1 p_a2 p_code p_beh p_queue].
  destruct H as [H|H H1|H Hm H0 H1 H2|H Hm H0 H1 H2].
  - replace (w_due w <=? ev_time e)%Z with true by lia. reflexivity.
  - replace (w_due w <=? ev_time e)%Z with false by lia. rewrite H1, N.eqb_refl. reflexivity.
  - replace (w_due w <=? ev_time e)%Z with false by lia. apply N.eqb_neq in H0, H1. rewrite H0, H1, H2, Hm. reflexivity.
  - replace (w_due w <=? ev_time e)%Z with false by lia. apply N.eqb_neq in H0, H1. rewrite H0, H1, H2, Hm.
    cbn [beh negb andb]. now rewrite existsb_self.
Qed.
Lemma action_open e : ~ bystander w q e -> (forall a, ~ settles w q e a) ->
  pending_action (pend_of (queued q e)) (ev_code e) (ev_pressed e) (ev_time e) = DNone.
Proof.
  intros Hb H. unfold pending_action, pend_of, queued. cbn [p_expire p_a1 p_a2 p_code p_beh p_queue].
  destruct (Z.leb_spec (w_due w) (ev_time e)) as [Ht|Ht]; [elim (H _ (by_time _ _ _ Ht))|].
  destruct (N.eqb_spec (ev_code e) (w_key w)) as [Ex|Ex]; [elim (H _ (by_itself _ _ _ Ht Ex))|].
  destruct (w_med w) eqn:Em; cbn [beh].
  - reflexivity.
  - destruct (N.eqb_spec (ev_code e) 0) as [E0|E0].
    + rewrite E0, tick_not_queued. now rewrite andb_false_r.
    + destruct (ev_pressed e) eqn:Ep; [reflexivity|]. elim (H _ (by_tap _ _ _ Ht Em E0 Ex Ep)).
  - destruct (N.eqb_spec (ev_code e) 0) as [E0|E0]; [reflexivity|].
    destruct (ev_pressed e) eqn:Ep; [|reflexivity]. elim (H _ (by_press _ _ _ Ht Em E0 Ex Ep)).
Qed.

Variable k : kbd.
Hypothesis Hk : k_pend k = pend_of q.

Lemma plan_open e : ~ bystander w q e ->
  pending_plan k (ev_code e) (ev_pressed e) (ev_time e)
  = Crash CPendingQueue
  \/ pending_plan k (ev_code e) (ev_pressed e) (ev_time e)
     = let a := pending_action (pend_of (queued q e)) (ev_code e) (ev_pressed e) (ev_time e) in
       if has_op a then k3 <- decide k (pend_of (queued q e)) a (ev_time e) ;; Ok (k3, PReplay (queued q e))
       else Ok (set_k_pend (pend_of (queued q e)) k, PTaken).
Proof.
  intros Hb. unfold pending_plan. rewrite Hk. cbn [pend_of p_code p_queue].
  apply N.eqb_neq in Hw as Hw'. rewrite Hw'.
  destruct (_ && _) in |- *; [now left|].
  assert (Ec : negb (ev_code e =? 0)%N && negb (ev_pressed e)
      && negb (existsb (fun e0 => (ev_code e0 =? ev_code e)%N) q) && negb (ev_code e =? w_key w)%N = false).
  { destruct (not_bystander _ _ _ Hb) as [E|[E|[E|E]]]; rewrite E.
    - reflexivity.
    - cbn [negb]. now rewrite andb_false_r.
    - rewrite N.eqb_refl. cbn [negb]. now rewrite andb_false_r.
    - cbn [negb]. now rewrite !andb_false_r. }
  rewrite Ec. right. cbv zeta. unfold queued. destruct (ev_code e =? 0)%N; [reflexivity|].
  unfold set_p_queue, pend_of. destruct e; reflexivity.
Qed.
End Decision.

(* ---- bystanders ----------------------------------------------------------------- *)
Definition keep_p (p : pend) (k : kbd) : kbd := re (fun _ => p) (fun c => c) (fun z => z) k.
Lemma keep_set p k : keep_p p k = set_k_pend p k.
Proof. unfold keep_p, re. rewrite map_id. now destruct k. Qed.
Lemma keep_do p k code d dl (pressed : bool) time :
  match d with DOverload _ _ | DOverloadI _ _ _ | DOverloadT _ _ _ | DOverloadT2 _ _ _ | DTimeout _ _ _ => False | _ => True end ->
  do_desc (set_k_pend p k) code d dl pressed time = mapr (set_k_pend p) (do_desc k code d dl pressed time).
Proof.
  intros H. rewrite <- keep_set. unfold keep_p.
  rewrite (re_do (fun _ => p) (fun c => c) (fun z => z) eq_refl
    (fun _ _ d => match d with DOverload _ _ | DOverloadI _ _ _ | DOverloadT _ _ _ | DOverloadT2 _ _ _ | DTimeout _ _ _ => False | _ => True end)).
  - destruct (do_desc k code d dl pressed time) as [k1| | |]; cbn [mapr]; auto. f_equal. apply keep_set.
  - intros c t d0 H0. destruct d0; try exact Logic.I; try destruct H0; reflexivity.
  - intros c t l a H0. destruct H0.
  - intros c t a b t0 H0. destruct H0.
  - exact H.
  - reflexivity.
Qed.
Lemma keep_update p k : update_mods false (set_k_pend p k) None 0 = set_k_pend p (update_mods false k None 0).
Proof. rewrite <- !keep_set. unfold keep_p. apply re_update. Qed.
Lemma keep_oneshot p k : clear_oneshot (set_k_pend p k) = mapr (set_k_pend p) (clear_oneshot k).
Proof.
  rewrite <- keep_set. unfold keep_p. rewrite re_clear_oneshot by reflexivity.
  destruct (clear_oneshot k) as [k1| | |]; cbn [mapr]; auto. f_equal. apply keep_set.
Qed.
Lemma keep_expire p k time : expire_oneshot (set_k_pend p k) time = mapr (set_k_pend p) (expire_oneshot k time).
Proof.
  unfold expire_oneshot. cbn [k_oneshot_to set_k_pend]. destruct (_ && _); [|reflexivity].
  eapply mapr_bind; [apply keep_oneshot|]. intros k1 _. cbn [mapr]. f_equal. apply keep_update.
Qed.
Lemma keep_macro p k code time : code <> 0%N ->
  run_active_macro (set_k_pend p k) code time = mapr (set_k_pend p) (run_active_macro k code time).
Proof.
  intros H. apply N.eqb_neq in H. unfold run_active_macro. cbn [k_amacro set_k_pend].
  destruct (k_amacro k); [|reflexivity]. rewrite H. cbn [negb mapr]. f_equal.
  change (set_k_amacro None (set_k_pend p k)) with (set_k_pend p (set_k_amacro None k)). apply keep_update.
Qed.
Lemma keep_deactivate p k i : deactivate_layer (set_k_pend p k) i = mapr (set_k_pend p) (deactivate_layer k i).
Proof.
  rewrite <- keep_set. unfold keep_p. rewrite re_deactivate.
  destruct (deactivate_layer k i) as [k1| | |]; cbn [mapr]; auto. f_equal. apply keep_set.
Qed.
(* an overload that was not pressed last does nothing but end its layer *)
Lemma overload_released k code l a dl time : k_last_code k <> code ->
  do_desc k code (DOverload l a) dl false time
  = (_ <- desc_at k a ;; k1 <- deactivate_layer k l ;; Ok (update_mods false k1 None 0)).
Proof.
  intros H. unfold do_desc, pd_fuel. cbn [process_descriptor pre_macro bind].
  destruct (desc_at k a); cbn [bind]; auto.
  destruct (deactivate_layer k l) as [k1| | |] eqn:E; cbn [bind]; auto.
  apply deactivate_ok in E as [_ [x E]].
  assert (E2 : k_last_code (update_mods false k1 None 0) = k_last_code k).
  { destruct (update_mods_only false k1 None 0%N) as [? [? [? X]]]. rewrite X, E. reflexivity. }
  rewrite E2. apply N.eqb_neq in H. rewrite H. reflexivity.
Qed.
Lemma keep_release p k code d dl time : k_last_code k <> code ->
  do_desc (set_k_pend p k) code d dl false time = mapr (set_k_pend p) (do_desc k code d dl false time).
Proof.
  intros H. destruct d; try (apply keep_do; exact Logic.I); try reflexivity.
  rewrite !overload_released by exact H. change (desc_at (set_k_pend p k) a) with (desc_at k a).
  destruct (desc_at k a); cbn [bind mapr]; auto.
  eapply mapr_bind; [apply keep_deactivate|]. intros k1 _. cbn [mapr]. f_equal. apply keep_update.
Qed.
Lemma keep_key p k code time : code <> 0%N -> k_last_code k <> code ->
  handle_key (set_k_pend p k) code false time = mapr (set_k_pend p) (handle_key k code false time).
Proof.
  intros Hc A. apply N.eqb_neq in Hc. unfold handle_key. rewrite Hc. unfold cache_get, cache_nth.
  cbn [k_cache set_k_pend]. destruct (cache_find (k_cache k) code 0) as [i|] eqn:Ef; [|reflexivity].
  unfold cache_set. cbn [k_cache set_k_pend]. destruct (cache_slot (k_cache k) code 0 None) as [j|]; [|reflexivity].
  match goal with |- do_desc (set_k_cache ?c (set_k_pend p k)) _ _ _ _ _ = _ =>
    change (set_k_cache c (set_k_pend p k)) with (set_k_pend p (set_k_cache c k)) end.
  apply keep_release. exact A.
Qed.
Lemma expire_last k time k' : expire_oneshot k time = Ok k' -> k_last_code k' = k_last_code k.
Proof.
  unfold expire_oneshot. destruct (_ && _); [|intros H; apply Ok_inj in H; now subst]. intros H.
  bstep H k1 E. apply clear_oneshot_ok in E as [ls [ns [-> _]]]. apply Ok_inj in H. subst k'.
  match goal with |- context [update_mods false ?a None 0] => destruct (update_mods_only false a None 0%N) as [? [? [? ->]]] end.
  reflexivity.
Qed.
Lemma run_macro_last k code time k' : code <> 0%N -> run_active_macro k code time = Ok k' -> k_last_code k' = k_last_code k.
Proof.
  intros Hc. apply N.eqb_neq in Hc. unfold run_active_macro. destruct (k_amacro k); [|intros H; apply Ok_inj in H; now subst].
  rewrite Hc. cbn [negb]. intros H. apply Ok_inj in H. subst k'.
  match goal with |- context [update_mods false ?a None 0] => destruct (update_mods_only false a None 0%N) as [? [? [? ->]]] end.
  reflexivity.
Qed.
Lemma keep_rest p k code time : code <> 0%N -> k_last_code k <> code ->
  rest_step (set_k_pend p k) code false time = mapr (set_k_pend p) (rest_step k code false time).
Proof.
  intros Hc A. unfold rest_step. eapply mapr_bind; [apply keep_expire|]. intros k1 E1.
  eapply mapr_bind; [now apply keep_macro|]. intros k2 E2. apply keep_key; auto.
  rewrite (run_macro_last _ _ _ _ Hc E2), (expire_last _ _ _ E1). exact A.
Qed.
Lemma keep_rest_pend k code time k' : code <> 0%N -> k_last_code k <> code ->
  rest_step k code false time = Ok k' -> k_pend k' = k_pend k.
Proof.
  intros Hc A H. pose proof (keep_rest (k_pend k) k code time Hc A) as E.
  replace (set_k_pend (k_pend k) k) with k in E by (now destruct k). rewrite H in E. cbn [mapr] in E.
  apply Ok_inj in E. rewrite E. reflexivity.
Qed.
Lemma release_last k code d dl time k' : k_last_code k <> code ->
  do_desc k code d dl false time = Ok k' -> k_last_code k' = k_last_code k.
Proof.
  intros Hn H. destruct (match d with DOverload _ _ => true | _ => false end) eqn:Ed.
  { destruct d; try discriminate. rewrite overload_released in H by exact Hn. bstep H ac Ea. bstep H k2 E2.
    apply Ok_inj in H. subst k'. norm_states. reflexivity. }
  destruct d; try discriminate Ed; clear Ed;
    try (unfold do_desc, pd_fuel in H; cbn [process_descriptor pre_macro bind] in H; bstep H k1 E1;
         apply Ok_inj in H; subst k'; rename E1 into H).
  - apply Ok_inj in H. now subst.
  - unfold pd_key in H. bstep H k2 E2. apply Ok_inj in E2, H. subst k2 k1. destruct (_ || _); norm_states; reflexivity.
  - unfold pd_oneshot in H. destruct (k_latch k).
    + bstep H u Eu. cbv zeta in H. destruct (_ =? 0)%Z; [apply Ok_inj in H; subst; reflexivity|]. norm_states. reflexivity.
    + bstep H k2 E2. apply Ok_inj in H. subst k1. norm_states. reflexivity.
  - unfold pd_oneshot in H. destruct (k_latch k).
    + bstep H u Eu. cbv zeta in H. destruct (_ =? 0)%Z; [apply Ok_inj in H; subst; reflexivity|]. norm_states. reflexivity.
    + bstep H k2 E2. apply Ok_inj in H. subst k1. norm_states. reflexivity.
  - unfold pd_layer in H. bstep H k2 E2. apply Ok_inj in H. subst k1. norm_states. reflexivity.
  - apply Ok_inj in H. now subst.
  - bstep H mm Em. apply Ok_inj in H. subst k1. destruct mm as [|[[] dt] [|]]; norm_states; reflexivity.
  - unfold pd_layer in H. bstep H k2 E2. apply Ok_inj in H. subst k1. norm_states. reflexivity.
  - apply Ok_inj in H. now subst.
  - apply Ok_inj in H. now subst.
  - apply Ok_inj in H. now subst.
  - apply Ok_inj in H. now subst.
  - apply Ok_inj in H. now subst.
  - apply Ok_inj in H. now subst.
  - apply Ok_inj in H. now subst.
  - apply Ok_inj in H. now subst.
  - apply Ok_inj in H. now subst.
  - apply Ok_inj in H. now subst.
  - apply Ok_inj in H. now subst.
  - apply Ok_inj in H. now subst.
  - apply Ok_inj in H. now subst.
  - apply Ok_inj in H. now subst.
Qed.
Lemma rest_last k code time k' : code <> 0%N -> k_last_code k <> code ->
  rest_step k code false time = Ok k' -> k_last_code k' = k_last_code k.
Proof.
  intros Hc Hn H. unfold rest_step in H. bstep H k3 E3. bstep H k4 E4.
  assert (El : k_last_code k4 = k_last_code k)
    by now rewrite (run_macro_last _ _ _ _ Hc E4), (expire_last _ _ _ E3).
  rewrite <- El in Hn |- *. clear El E3 E4 k3 k. unfold handle_key in H. apply N.eqb_neq in Hc. rewrite Hc in H.
  destruct (cache_get k4 code) as [i|]; [|apply Ok_inj in H; now subst].
  unfold cache_set in H. destruct (cache_slot _ _ _ _) as [j|]; [|apply Ok_inj in H; now subst].
  apply release_last in H; auto.
Qed.

(* ---- single events while a key is undecided --------------------------------------- *)
Definition sit (k : kbd) (w : waiting) (q : list kev) : Prop := undecided k w q /\ uniq (k_cache k).
(* the parts that never change on the way *)
Definition same_setup (k k' : kbd) : Prop := k_cfg k' = k_cfg k /\ k_achords k' = k_achords k.

Lemma queued_nonzero q e : Forall (fun e => ev_code e <> 0%N) q -> Forall (fun e => ev_code e <> 0%N) (queued q e).
Proof.
  intros H. unfold queued. destruct (N.eqb_spec (ev_code e) 0); auto. apply Forall_app. split; auto.
Qed.

Lemma event_open f k e r : no_chord k (ev_code e) ->
  process_event (S f) k (ev_code e) (ev_pressed e) (ev_time e) = Ok r ->
  after_chord (fun k evs => pe_loop (process_event f) f k evs 0 0)
    (chord_seen k (ev_code e) (ev_pressed e) (ev_time e)) (ev_code e) (ev_pressed e) (ev_time e) = Ok r.
Proof.
  intros Hc H. cbn [process_event] in H. rewrite process_event_plan in H.
  rewrite chord_plan_open in H by exact Hc. cbn [bind run_plan] in H. exact H.
Qed.

Lemma step_wait f k w q e k' d : sit k w q -> no_chord k (ev_code e) -> ~ bystander w q e ->
  (forall a, ~ settles w q e a) ->
  process_event (S f) k (ev_code e) (ev_pressed e) (ev_time e) = Ok (k', d) ->
  sit k' w (queued q e) /\ same_but_timers (aside k) (aside k') /\ same_setup k k'
  /\ exists k1, k_timeouts k1 = k_timeouts k /\ calculate_main_loop_timeout k1 (ev_time e) = (k', d).
Proof.
  intros [[Hp Hw Hq Hl Hh Hs] Hu] Hc Hb Hn H. apply event_open in H; [|exact Hc]. unfold after_chord in H.
  set (k0 := chord_seen k (ev_code e) (ev_pressed e) (ev_time e)) in *.
  assert (E0 : exists qc, k0 = set_k_chord qc k /\ h_state qc = h_state (k_chord k)) by (eexists; split; reflexivity).
  destruct E0 as [qc [E0 Ec]]. clearbody k0. subst k0.
  destruct (plan_open w q Hw (set_k_chord qc k) Hp e Hb) as [E|E]; rewrite E in H; [discriminate H|].
  cbv zeta in H. rewrite (action_open w q Hq e Hb Hn) in H. cbn [has_op bind run_pplan] in H.
  apply Ok_inj in H. unfold calculate_main_loop_timeout in H. apply pair_equal_spec in H as [H Hd].
  cbn [k_timeouts set_k_pend set_k_chord] in *. subst k'.
  split; [split; [constructor|exact Hu]|split; [|split]].
  - reflexivity.
  - exact Hw.
  - now apply queued_nonzero.
  - exact Hl.
  - exact Hh.
  - cbn [k_chord set_k_timeouts set_k_pend set_k_chord]. congruence.
  - exists qc. eexists. split; [|exact Ec]. unfold aside. cbn [k_pend set_k_timeouts set_k_pend]. rewrite Hp. reflexivity.
  - split; reflexivity.
  - exists (set_k_pend (pend_of w (queued q e)) (set_k_chord qc k)). split; [reflexivity|].
    unfold calculate_main_loop_timeout. cbn [k_timeouts set_k_pend set_k_chord]. rewrite Hd. reflexivity.
Qed.

Lemma release_codes k code time k' x : handle_key k code false time = Ok k' -> uniq (k_cache k) ->
  x <> 0%N -> x <> code -> (exists e, In e (k_cache k) /\ ce_code e = x) -> exists e, In e (k_cache k') /\ ce_code e = x.
Proof.
  intros H U H0 Hx He. unfold handle_key in H. destruct (code =? 0)%N; [apply Ok_inj in H; now subst|].
  destruct (cache_get k code) as [i|] eqn:Eg; [|apply Ok_inj in H; now subst].
  destruct (cache_set _ _ _) as [k1|] eqn:E; [|apply Ok_inj in H; now subst].
  assert (U1 : uniq (k_cache k1)) by (eapply cache_set_uniq; eauto).
  assert (H1 : exists e, In e (k_cache k1) /\ ce_code e = x).
  { apply cache_set_spec in E as [j [e [-> [Hj [Hc _]]]]]. cbn [k_cache set_k_cache].
    destruct He as [e0 [He0 Ee0]]. apply In_nth with (d := zero_ce) in He0 as [n [Hn En]].
    assert (j <> n). { intros ->. rewrite En in Hc. destruct Hc as [Hc|[Hc _]]; congruence. }
    exists e0. split; auto. rewrite <- En, <- (nth_upd_other j n e) by auto. apply nth_In. now rewrite upd_length. }
  unfold do_desc in H. apply (pd_evols True) in H as [H _]; auto. apply evols_codes in H.
  destruct H1 as [e [A B]]. apply (in_map ce_code) in A. rewrite <- H in A. apply in_map_iff in A as [e' [A1 A2]].
  exists e'. split; congruence.
Qed.

Lemma step_free f k w q e k' d : sit k w q -> no_chord k (ev_code e) -> bystander w q e ->
  process_event (S f) k (ev_code e) (ev_pressed e) (ev_time e) = Ok (k', d) ->
  sit k' w q /\ (forall g, process_event (S g) (aside k) (ev_code e) (ev_pressed e) (ev_time e) = Ok (aside k', d))
  /\ same_setup k k'
  /\ exists k1, (forall x, In x (k_timeouts k) -> In x (k_timeouts k1))
       /\ calculate_main_loop_timeout k1 (ev_time e) = (k', d).
Proof.
  intros [[Hp Hw Hq Hl Hh Hs] Hu] Hc [Hb0 [Hbp [Hbx Hbq]]] H.
  apply process_event_open in H as [k1 [E H]]; [|exact Hc|].
  2: { right. rewrite Hp. cbn [p_code p_queue]. repeat split; auto. }
  rewrite Hbp in *.
  set (k0 := chord_seen k (ev_code e) false (ev_time e)) in *.
  assert (E0 : exists qc, k0 = set_k_chord qc k /\ h_state qc = h_state (k_chord k)) by (eexists; split; reflexivity).
  destruct E0 as [qc [E0 Ec]].
  assert (T0 : k_last_code k0 <> ev_code e) by (rewrite E0; cbn [k_last_code set_k_chord]; rewrite Hl; auto).
  pose proof (keep_rest_pend _ _ _ _ Hb0 T0 E) as Ep.
  pose proof (rest_frame _ _ _ _ _ E) as [F1 [F2 [F3 [F4 [F5 F6]]]]].
  pose proof (rest_tgrow _ _ _ _ _ E) as [new Etn].
  unfold calculate_main_loop_timeout in H. symmetry in H. apply pair_equal_spec in H as [H Hd].
  split; [split; [constructor|]|split; [|split]].
  - rewrite <- H. cbn [k_pend set_k_timeouts]. rewrite Ep, E0. exact Hp.
  - exact Hw.
  - exact Hq.
  - rewrite <- H. cbn [k_last_code set_k_timeouts]. rewrite (rest_last _ _ _ _ Hb0 T0 E), E0. exact Hl.
  - rewrite <- H. cbn [k_cache set_k_timeouts]. unfold rest_step in E. bstep E k3 E3. bstep E k4 E4.
    eapply release_codes; [exact E| |exact Hw|intros X; now apply Hbx|].
    + apply expire_cp in E3 as [_ E3]. apply run_macro_cp in E4 as [_ E4]. rewrite E4, E3, E0. exact Hu.
    + apply expire_cp in E3 as [_ E3]. apply run_macro_cp in E4 as [_ E4]. rewrite E4, E3, E0. exact Hh.
  - rewrite <- H. cbn [k_chord set_k_timeouts]. rewrite F3, E0. cbn [k_chord set_k_chord]. congruence.
  - rewrite <- H. cbn [k_cache set_k_timeouts]. eapply rest_uniq; [exact E|]. rewrite E0. exact Hu.
  - intros g. cbn [process_event]. rewrite process_event_plan. rewrite chord_plan_open.
    2: { destruct Hc as [C1 C2]. split; [exact C1|]. exact C2. }
    cbn [bind run_plan]. unfold after_chord.
    assert (Ea : chord_seen (aside k) (ev_code e) false (ev_time e) = set_k_pend (k_pend (aside k)) k0) by reflexivity.
    rewrite Ea. unfold pending_plan. rewrite aside_pend.
    cbn [k_pend set_k_pend p_code set_p_code N.eqb bind run_pplan].
    rewrite (keep_rest _ _ _ _ Hb0 T0), E. cbn [mapr bind]. f_equal.
    unfold calculate_main_loop_timeout. cbn [k_timeouts set_k_pend]. rewrite Hd. f_equal.
    rewrite <- H. unfold aside. cbn [k_pend set_k_timeouts]. rewrite Ep, E0. reflexivity.
  - rewrite <- H. split; cbn [k_cfg k_achords set_k_timeouts]; [rewrite F1|rewrite F4]; rewrite E0; reflexivity.
  - exists k1. split.
    + intros x Hx. rewrite Etn. apply in_or_app. left. rewrite E0. exact Hx.
    + unfold calculate_main_loop_timeout. rewrite Hd, H. reflexivity.
Qed.

Lemma held_split c x : forall n j, cache_find c x n = Some j ->
  exists pre e post, c = pre ++ e :: post /\ ce_code e = x
    /\ forall y, upd (j - n) y c = pre ++ y :: post.
Proof.
  induction c as [|e c IH]; intros n j H; cbn [cache_find] in H; [discriminate|].
  destruct (N.eqb_spec (ce_code e) x) as [E|E].
  - injection H as <-. exists [], e, c. rewrite Nat.sub_diag. repeat split; auto.
  - pose proof H as H'. apply cache_find_at in H' as [L _]. apply IH in H as [pre [e' [post [-> [Ee Hu]]]]].
    exists (e :: pre), e', post. split; [reflexivity|]. split; [exact Ee|]. intros y.
    replace (j - n) with (S (j - S n)) by lia. cbn [upd app]. now rewrite Hu.
Qed.

Lemma step_settle f k w q e a r : sit k w q -> no_chord k (ev_code e) -> ~ bystander w q e ->
  settles w q e a -> a <> DNone ->
  process_event (S f) k (ev_code e) (ev_pressed e) (ev_time e) = Ok r ->
  exists k0 k1 k2 d2, same_but_timers (aside k) k0 /\ act k0 (w_key w) a (w_from w) (ev_time e) k1
    /\ k_cfg k1 = k_cfg k
    /\ kbd_process_events f k1 (queued q e) = Ok (k2, d2)
    /\ r = calculate_main_loop_timeout k2 (ev_time e).
Proof.
  intros [[Hp Hw Hq Hl Hh Hs] Hu] Hc Hb Hn Ha H. apply event_open in H; [|exact Hc]. unfold after_chord in H.
  set (k0 := chord_seen k (ev_code e) (ev_pressed e) (ev_time e)) in *.
  assert (E0 : exists qc, k0 = set_k_chord qc k /\ h_state qc = h_state (k_chord k)) by (eexists; split; reflexivity).
  destruct E0 as [qc [E0 Ec]]. clearbody k0. subst k0.
  destruct (plan_open w q Hw (set_k_chord qc k) Hp e Hb) as [E|E]; rewrite E in H; [discriminate H|].
  cbv zeta in H. rewrite (action_settled w q Hw e a Hb Hn) in H.
  apply has_op_spec in Ha. rewrite Ha in H.
  bstep H k5 E5. destruct k5 as [k5 b5]. bstep E5 k6 E6. destruct k6 as [k6 b6]. bstep E6 k7 E7.
  apply Ok_inj, pair_equal_spec in E6 as [<- <-]. cbn [run_pplan] in E5. bstep E5 k8 E8. destruct k8 as [k8 d8].
  apply Ok_inj, pair_equal_spec in E5 as [<- <-]. apply Ok_inj in H. subst r.
  exists (aside (set_k_chord qc k)), k7, k8, d8.
  assert (E7' : exists pre e0 post, k_cache k = pre ++ e0 :: post /\ ce_code e0 = w_key w
     /\ do_desc (set_k_cache (pre ++ mkCe (w_key w) a (w_from w) 0 :: post) (aside (set_k_chord qc k)))
           (w_key w) a (w_from w) true (ev_time e) = Ok k7).
  { unfold decide in E7. cbn [p_code pend_of p_dl] in E7.
    assert (Ea : set_k_pend (set_p_code 0%N (set_p_queue [] (pend_of w (queued q e)))) (set_k_chord qc k)
                 = aside (set_k_chord qc k)).
    { unfold aside. cbn [k_pend set_k_chord]. rewrite Hp. reflexivity. }
    rewrite Ea in E7.
    assert (Ef : exists j, cache_find (k_cache k) (w_key w) 0 = Some j).
    { destruct Hh as [e0 [He Ee]]. generalize 0. clear -He Ee.
      induction (k_cache k) as [|y l IH]; intros n; [destruct He|]. cbn [cache_find].
      destruct (N.eqb_spec (ce_code y) (w_key w)); eauto. destruct He as [->|He]; [congruence|]. apply IH, He. }
    destruct Ef as [j Ef]. destruct (held_split _ _ _ _ Ef) as [pre [e0 [post [S1 [S2 S3]]]]].
    exists pre, e0, post. split; [exact S1|]. split; [exact S2|].
    unfold cache_set in E7. cbn [k_cache aside set_k_pend set_k_chord] in E7.
    rewrite (cache_slot_find _ _ _ None _ Ef) in E7. cbn [ce_d ce_dl ce_layer] in E7.
    rewrite Nat.sub_0_r in S3. cbn [plus] in E7. rewrite S3 in E7. exact E7. }
  split; [|split; [|split; [|split; [exact E8|reflexivity]]]].
  - exists qc, (k_timeouts k). split; [|exact Ec]. unfold aside. destruct k; reflexivity.
  - destruct E7' as [pre [e0 [post [S1 [S2 S3]]]]]. exists pre, e0, post.
    split; [exact S1|]. split; [exact S2|]. exact S3.
  - destruct E7' as [pre [e0 [post [S1 [S2 S3]]]]]. unfold do_desc in S3. apply pd_frame in S3 as [S3 _].
    rewrite S3. reflexivity.
Qed.

(* ---- the whole time of suspense ---------------------------------------------------- *)
Lemma outcome_of f k evs r : kbd_process_events f k evs = r -> r <> NoFuel -> outcome k evs r.
Proof.
  intros E H. split; [exact H|]. exists f. intros g L. rewrite <- E. unfold kbd_process_events in *.
  apply fin_loop_more; auto. rewrite E. exact H.
Qed.
Lemma outcome_one k e r : outcome k [e] (Ok r) ->
  exists f, process_event (S f) k (ev_code e) (ev_pressed e) (ev_time e) = Ok r.
Proof. intros H. apply single_outcome in H as [_ [f H]]. exists f. apply H. lia. Qed.
Lemma one_outcome k e r : (forall g, process_event (S g) k (ev_code e) (ev_pressed e) (ev_time e) = Ok r) ->
  outcome k [e] (Ok r).
Proof. intros H. apply single_outcome. split; [discriminate|]. exists 1. intros [|g] L; [lia|apply H]. Qed.

Lemma same_setup_refl k : same_setup k k. Proof. split; reflexivity. Qed.
Lemma same_setup_trans a b c : same_setup a b -> same_setup b c -> same_setup a c.
Proof. unfold same_setup. intuition congruence. Qed.
Lemma aloof_setup k k' c : same_setup k k' -> aloof k c -> aloof k' c.
Proof.
  intros [E1 E2] [H1 H2]. unfold aloof, layer_of in *. rewrite E1, E2. split; assumption.
Qed.
Lemma aloof_unchorded k c : aloof k c -> unchorded k c.
Proof. intros [H1 H2]. split; [|exact H2]. intros i ch _. apply H1. Qed.
Lemma apart_setup k k' e : same_setup k k' -> apart k e -> apart k' e.
Proof. intros H [H1 H2]. split; auto. destruct H2; auto. right. eapply aloof_setup; eauto. Qed.
Lemma apart_no_chord k w q e : sit k w q -> apart k e -> no_chord k (ev_code e).
Proof.
  intros [Hs _] [_ H]. split; [apply Hs|]. destruct H; auto. right. now apply aloof_unchorded.
Qed.

Definition alarm (k : kbd) (w : waiting) (delay due : Z) : Prop := alarmed k w delay due /\ (0 <= due)%Z.
Lemma alarm_calc w k1 time k' d : (0 <= time)%Z -> (time < w_due w)%Z -> In (w_due w) (k_timeouts k1) ->
  calculate_main_loop_timeout k1 time = (k', d) -> alarm k' w d (time + d).
Proof.
  intros H0 Ht Hi H. apply calc_spec in H as [H1 H2]; [|exact H0].
  assert (Hw : In (w_due w) (k_timeouts k')) by (apply H1; auto).
  destruct H2 as [[H2 _]|[x [X1 [X2 X3]]]]; [rewrite H2 in Hw; destruct Hw|].
  pose proof X1 as X4. apply H1 in X4. replace (time + d)%Z with x by lia. unfold alarm, alarmed. repeat split; auto; lia.
Qed.

(* an event that comes too early to matter, or a bystander's release *)
Lemma early_step w q k e k1 d1 : sit k w q -> In (w_due w) (k_timeouts k) -> apart k e -> ~ bystander w q e ->
  (forall a, ~ settles w q e a) -> outcome k [e] (Ok (k1, d1)) ->
  sit k1 w (queued q e) /\ alarm k1 w d1 (ev_time e + d1) /\ same_but_timers (aside k) (aside k1) /\ same_setup k k1.
Proof.
  intros S A Ap Hb Hn H. apply outcome_one in H as [f H].
  destruct (step_wait _ _ _ _ _ _ _ S (apart_no_chord _ _ _ _ S Ap) Hb Hn H) as [S1 [B [C [k2 [T E]]]]].
  split; [exact S1|]. split; [|split; assumption].
  eapply alarm_calc; [apply Ap| |rewrite T; exact A|exact E].
  destruct (Z.ltb_spec (ev_time e) (w_due w)) as [L|L]; auto. elim (Hn _ (by_time _ _ _ L)).
Qed.
Lemma tick_not_bystander w q t : ~ bystander w q (mkKev 0%N false t).
Proof. intros [H _]. now apply H. Qed.
Lemma tick_settles w q t a : w_key w <> 0%N -> (t < w_due w)%Z -> ~ settles w q (mkKev 0%N false t) a.
Proof. intros Hw Ht H. destruct H as [H|H H1|H Hm H0|H Hm H0]; cbn [ev_time ev_code] in *; congruence || lia. Qed.
Lemma code0_settles w q e a : w_key w <> 0%N -> ev_code e = 0%N -> (ev_time e < w_due w)%Z -> ~ settles w q e a.
Proof. intros Hw E Ht H. destruct H as [H|H H1|H Hm H0|H Hm H0]; cbn [ev_time ev_code] in *; congruence || lia. Qed.

Lemma driven_ticks w q e l r : forall k d due, driven k d due (e :: l) (Ok r) -> sit k w q -> alarm k w d due ->
  exists k0 d0 due0, sit k0 w q /\ alarm k0 w d0 due0 /\ same_but_timers (aside k) (aside k0) /\ same_setup k k0
    /\ (((ev_time e < w_due w)%Z /\ exists k1 d1, outcome k0 [e] (Ok (k1, d1)) /\ driven k1 d1 (ev_time e + d1) l (Ok r))
        \/ ((w_due w <= ev_time e)%Z /\ exists k1 d1, outcome k0 [mkKev 0%N false (w_due w)] (Ok (k1, d1))
             /\ driven k1 d1 (w_due w + d1) (e :: l) (Ok r))).
Proof.
  intros k d due H. remember (e :: l) as evs eqn:Ee. remember (Ok r) as r0 eqn:Er.
  induction H as [k delay due|k delay due e0 rest ka da r0 Hd Hu Ho Hr IH|k delay due e0 rest r0 Hd Hu Ho Hx
                 |k delay due e0 rest ka da r0 Hn Ho Hr IH|k delay due e0 rest r0 Hn Ho Hx]; intros S A.
  - discriminate Ee.
  - injection Ee as -> ->. subst r0.
    assert (Lw : (due <= w_due w)%Z) by (destruct A as [[_ [A1 [_ A2]]] _]; now apply A2).
    destruct (Z.eq_dec due (w_due w)) as [E|E].
    + subst due. exists k, delay, (w_due w). split; [exact S|]. split; [exact A|]. split; [apply sbt_refl|].
      split; [apply same_setup_refl|]. right. split; [exact Hu|]. eauto.
    + assert (Hk : w_key w <> 0%N) by apply S.
      destruct (early_step w q k (mkKev 0%N false due) ka da S) as [S1 [A1 [B1 C1]]].
      * apply A.
      * split; [apply A|now left].
      * apply tick_not_bystander.
      * intros a. apply tick_settles; [exact Hk|lia].
      * exact Ho.
      * destruct (IH eq_refl eq_refl S1 A1) as [k0 [d0 [due0 [R1 [R2 [R3 [R4 R5]]]]]]].
        exists k0, d0, due0. split; [exact R1|]. split; [exact R2|]. split; [eapply sbt_trans; eauto|].
        split; [eapply same_setup_trans; eauto|exact R5].
  - subst r0. elim (Hx r eq_refl).
  - injection Ee as -> ->. subst r0. exists k, delay, due. split; [exact S|]. split; [exact A|]. split; [apply sbt_refl|].
    split; [apply same_setup_refl|]. left. split; [|eauto].
    destruct A as [[A0 [A1 [_ A2]]] _]. specialize (A2 _ A1). lia.
  - subst r0. elim (Hx r eq_refl).
Qed.

Lemma settles_dec w q e : (forall a, ~ settles w q e a) -> (ev_time e < w_due w)%Z.
Proof. intros H. destruct (Z.ltb_spec (ev_time e) (w_due w)) as [L|L]; auto. elim (H _ (by_time _ _ _ L)). Qed.

Lemma driven_suspense w r : forall q evs freed struck, suspense w q evs freed struck ->
  forall rest k d due, driven k d due (evs ++ rest) (Ok r) -> sit k w q -> alarm k w d due -> Forall (apart k) evs ->
  exists k0 d0 due0, sit k0 w struck /\ alarm k0 w d0 due0 /\ let_go (aside k) freed (aside k0) /\ same_setup k k0
    /\ driven k0 d0 due0 rest (Ok r).
Proof.
  intros q evs freed struck Hs.
  induction Hs as [q|q e evs freed struck H0 Ht _ IH|q e evs freed struck Hb Ht _ IH|q e evs freed struck H0 Hb Hn _ IH];
    intros rest k d due H S A Hf.
  - exists k, d, due. split; [exact S|]. split; [exact A|]. split; [constructor; apply sbt_refl|].
    split; [apply same_setup_refl|exact H].
  - inversion Hf as [|? ? F1 F2]; subst. cbn [app] in H.
    destruct (driven_ticks w q e _ r _ _ _ H S A) as [ka [da [duea [S1 [A1 [B1 [C1 [[_ [kb [db [O1 D1]]]]|[L _]]]]]]]]]; [|lia].
    assert (Hk : w_key w <> 0%N) by apply S.
    destruct (early_step w q ka e kb db S1) as [S2 [A2 [B2 C2]]]; auto; [apply A1|eapply apart_setup; eauto| | |].
    { intros [X _]. now apply X. }
    { intros a. now apply code0_settles. }
    assert (Cab : same_setup k kb) by (eapply same_setup_trans; eauto).
    assert (Eq : queued q e = q) by (unfold queued; now rewrite H0). rewrite Eq in S2.
    destruct (IH rest kb db (ev_time e + db)%Z D1 S2 A2) as [k0 [d0 [due0 [R1 [R2 [R3 [R4 R5]]]]]]].
    { eapply Forall_impl; [|exact F2]. intros y. now apply apart_setup. }
    exists k0, d0, due0. split; [exact R1|]. split; [exact R2|]. split.
    { eapply let_go_pre; [|exact R3]. eapply sbt_trans; eauto. }
    split; [eapply same_setup_trans; eauto|exact R5].
  - inversion Hf as [|? ? F1 F2]; subst. cbn [app] in H.
    destruct (driven_ticks w q e _ r _ _ _ H S A) as [ka [da [duea [S1 [A1 [B1 [C1 [[_ [kb [db [O1 D1]]]]|[L _]]]]]]]]]; [|lia].
    assert (Ap : apart ka e) by (eapply apart_setup; eauto).
    apply outcome_one in O1 as [f O1].
    destruct (step_free f ka w q e kb db S1 (apart_no_chord _ _ _ _ S1 Ap) Hb O1) as [S2 [O2 [C2 [k2 [T2 E2]]]]].
    assert (A2 : alarm kb w db (ev_time e + db)).
    { eapply alarm_calc; [apply Ap|exact Ht|apply T2, A1|exact E2]. }
    assert (Cab : same_setup k kb) by (eapply same_setup_trans; eauto).
    destruct (IH rest kb db (ev_time e + db)%Z D1 S2 A2) as [k0 [d0 [due0 [R1 [R2 [R3 [R4 R5]]]]]]].
    { eapply Forall_impl; [|exact F2]. intros y. now apply apart_setup. }
    exists k0, d0, due0. split; [exact R1|]. split; [exact R2|]. split.
    { eapply lg_next; [exact B1|apply one_outcome, O2|exact R3]. }
    split; [eapply same_setup_trans; eauto|exact R5].
  - inversion Hf as [|? ? F1 F2]; subst. cbn [app] in H. pose proof (settles_dec _ _ _ Hn) as Ht.
    destruct (driven_ticks w q e _ r _ _ _ H S A) as [ka [da [duea [S1 [A1 [B1 [C1 [[_ [kb [db [O1 D1]]]]|[L _]]]]]]]]]; [|lia].
    destruct (early_step w q ka e kb db S1) as [S2 [A2 [B2 C2]]]; auto; [apply A1|eapply apart_setup; eauto|].
    assert (Cab : same_setup k kb) by (eapply same_setup_trans; eauto).
    assert (Eq : queued q e = q ++ [e]) by (unfold queued; apply N.eqb_neq in H0; now rewrite H0). rewrite Eq in S2.
    destruct (IH rest kb db (ev_time e + db)%Z D1 S2 A2) as [k0 [d0 [due0 [R1 [R2 [R3 [R4 R5]]]]]]].
    { eapply Forall_impl; [|exact F2]. intros y. now apply apart_setup. }
    exists k0, d0, due0. split; [exact R1|]. split; [exact R2|]. split.
    { eapply let_go_pre; [|exact R3]. eapply sbt_trans; eauto. }
    split; [eapply same_setup_trans; eauto|exact R5].
Qed.

(* ---- the press ---------------------------------------------------------------------- *)
Lemma press_defers k x s d dl w k1 :
  defers (k_cfg k) x dl s d w -> p_queue (k_pend k) = [] -> do_desc k x d dl true s = Ok k1 ->
  k1 = set_k_last_code x (set_k_timeouts (k_timeouts k ++ [w_due w])
         (set_k_pend (mkPend (w_key w) (w_from w) (w_due w) (beh (w_med w)) [] (w_tap w) (w_hold w)) k))
  /\ w_key w = x /\ w_from w = dl.
Proof.
  intros Hd Hq H. unfold do_desc, pd_fuel in H. 
  destruct Hd as [l a t|l a t|a t b]; cbn [process_descriptor pre_macro bind] in H; bstep H k2 E2;
    apply Ok_inj in H; subst k1; bstep E2 a1 Ea; [| |bstep E2 a2 Eb]; unfold set_pending in E2; cbv zeta in E2;
    apply schedule_ok in E2; apply desc_at_nth in Ea; try apply desc_at_nth in Eb; subst; rewrite Hq; split; auto.
Qed.

Lemma press_sit k x s d dl w k1 t1 :
  (forall i, (0 <= l_time (k_ls k i))%Z) -> uniq (k_cache k) -> (p_code (k_pend k) = 0%N -> p_queue (k_pend k) = []) ->
  ready k x s -> resolves k x d dl -> defers (k_cfg k) x dl s d w -> (0 <= s < w_due w)%Z ->
  outcome k [mkKev x true s] (Ok (k1, t1)) ->
  w_key w = x /\ w_from w = dl /\ sit k1 w [] /\ alarm k1 w t1 (s + t1) /\ noted k x d dl (aside k1) /\ same_setup k k1.
Proof.
  intros Ht Hu Hq Hr Hres Hd Hs H.
  apply outcome_one in H as [f H]. cbn [ev_code ev_pressed ev_time] in H.
  assert (Hu1 : uniq (k_cache k1)).
  { apply one_event in H. eapply events_uniq; [exact H|exact Hu]. }
  pose proof H as H'. apply process_event_calc in H' as [k2' Ec].
  destruct (press_do _ _ _ _ _ _ _ _ Ht Hr Hres H) as [k0 [k2 [[qc [i [E0 [Hi [Hz Ec0]]]]] [E2 E3]]]].
  assert (Hd0 : defers (k_cfg k0) x dl s d w) by (rewrite E0; exact Hd).
  assert (Hq0 : p_queue (k_pend k0) = []).
  { rewrite E0. apply Hq. apply Hr. }
  destruct (press_defers _ _ _ _ _ _ _ Hd0 Hq0 E2) as [E4 [Ew El]].
  assert (Ek : exists ts, k1 = set_k_timeouts ts k2) by (rewrite E3; eauto). destruct Ek as [ts Ek].
  split; [exact Ew|]. split; [exact El|].
  assert (Hx0 : x <> 0%N) by apply Hr.
  split; [split; [constructor|exact Hu1]|split; [|split]].
  - rewrite Ek, E4. reflexivity.
  - now rewrite Ew.
  - constructor.
  - rewrite Ek, E4. symmetry. exact Ew.
  - rewrite Ew. exists (mkCe x d dl 0). split; [|reflexivity].
    assert (Ec1 : k_cache k1 = upd i (mkCe x d dl 0) (k_cache k)) by (rewrite Ek, E4, E0; reflexivity). rewrite Ec1.
    rewrite <- (nth_upd_same i (mkCe x d dl 0) zero_ce (k_cache k)) at 1 by exact Hi. apply nth_In. now rewrite upd_length.
  - rewrite Ek, E4, E0. cbn [k_chord set_k_timeouts set_k_last_code set_k_pend set_k_cache set_k_chord]. rewrite Ec0. apply Hr.
  - unfold calculate_main_loop_timeout in Ec. apply pair_equal_spec in Ec as [Ec Ed].
    assert (El2 : k_timeouts k1 = filter (fun t => (s <? t)%Z) (k_timeouts k2)) by (rewrite E3; reflexivity).
    assert (Em : k_timeouts k1 = filter (fun t => (s <? t)%Z) (k_timeouts k2')) by (rewrite <- Ec; reflexivity).
    rewrite <- Em, El2 in Ed.
    eapply (alarm_calc w k2 s k1 t1); [lia|lia| |].
    + rewrite E4. cbn [k_timeouts set_k_last_code set_k_timeouts]. apply in_or_app. right. now left.
    + unfold calculate_main_loop_timeout. rewrite Ed, <- E3. reflexivity.
  - exists i, (k_pend (aside k1)), qc, ts. split; [exact Hi|]. split; [exact Hz|]. split; [reflexivity|]. split; [reflexivity|].
    split; [exact Ec0|]. rewrite Ek, E4, E0. unfold aside. destruct k; reflexivity.
  - rewrite Ek, E4, E0. split; reflexivity.
Qed.

(* the decision *)
Lemma settle_outcome k w q e a k' d' : sit k w q -> apart k e -> ~ bystander w q e ->
  settles w q e a -> a <> DNone -> outcome k [e] (Ok (k', d')) ->
  exists k0 k1 k2 d2, same_but_timers (aside k) k0 /\ act k0 (w_key w) a (w_from w) (ev_time e) k1
    /\ outcome k1 (queued q e) (Ok (k2, d2)) /\ rung (ev_time e) k2 k'.
Proof.
  intros S Ap Hb Hn Ha H. apply outcome_one in H as [f H].
  destruct (step_settle f k w q e a (k', d') S (apart_no_chord _ _ _ _ S Ap) Hb Hn Ha H)
    as [k0 [k1 [k2 [d2 [B [A [_ [O C]]]]]]]].
  exists k0, k1, k2, d2. split; [exact B|]. split; [exact A|]. split.
  - eapply outcome_of; [exact O|discriminate].
  - unfold calculate_main_loop_timeout in C. apply pair_equal_spec in C as [C _]. exact C.
Qed.

Lemma driven_inv_single k e r : driven k 0 0 [e] (Ok r) -> outcome k [e] (Ok r).
Proof.
  intros H. inversion H as [|k0 delay due e0 rest k1 d1 r0 Hd|k0 delay due e0 rest r0 Hd|k0 delay due e0 rest k1 d1 r0 Hn Ho Hr|k0 delay due e0 rest r0 Hn Ho Hx]; subst.
  - lia.
  - lia.
  - inversion Hr; subst. exact Ho.
  - exact Ho.
Qed.
Lemma driven_first k e l r : driven k 0 0 (e :: l) (Ok r) ->
  exists k1 d1, outcome k [e] (Ok (k1, d1)) /\ driven k1 d1 (ev_time e + d1) l (Ok r).
Proof.
  intros H. inversion H as [|k0 delay due e0 rest k1 d1 r0 Hd|k0 delay due e0 rest r0 Hd|k0 delay due e0 rest k1 d1 r0 Hn Ho Hr|k0 delay due e0 rest r0 Hn Ho Hx]; subst.
  - lia.
  - lia.
  - eauto.
  - elim (Hx r eq_refl).
Qed.

(* the actions of an undecided key exist *)
Lemma defers_some k x d dl s w : inv (k_cfg k) -> resolves k x d dl -> defers (k_cfg k) x dl s d w ->
  w_tap w <> DNone /\ w_hold w <> DNone.
Proof.
  intros [W _] Hr Hd.
  assert (Hok : forall a, (N.of_nat a < N.of_nat (length (c_descs (k_cfg k))))%N -> nth a (c_descs (k_cfg k)) DNone <> DNone).
  { intros a Ha. apply (wf_descs _ W). lia. }
  assert (Hb : ok_desc (k_cfg k) (N.of_nat (length (c_descs (k_cfg k)))) (N.of_nat (length (c_macros (k_cfg k))))
                 (N.of_nat (length (c_cmds (k_cfg k)))) d).
  { destruct Hr as [d i _ [Hi [<- _]] _|d i _ _ [Hi [<- _]] _|_ _]; try exact Logic.I;
      apply (wf_layers _ W); apply nth_In; exact Hi. }
  destruct Hd as [l a t|l a t|a t b]; cbn [ok_desc w_tap w_hold] in *; split; try discriminate; apply Hok; apply Hb.
Qed.

(* ---- no chords -------------------------------------------------------------------- *)
Definition calm_chords (k : kbd) : Prop :=
  chordless (k_cfg k) /\ h_state (k_chord k) = CsInactive /\ forall ac, In ac (k_achords k) -> ac_active ac = false.
Lemma calm_aloof k code : calm_chords k -> aloof k code.
Proof.
  intros [H1 [_ H3]]. split.
  - intros i ch Hc. unfold layer_of in Hc. rewrite H1 in Hc. destruct Hc.
  - intros ac Ha Hb. rewrite (H3 ac Ha) in Hb. discriminate.
Qed.
Lemma events_calm fuel k evs k' t : calm_chords k -> kbd_process_events fuel k evs = Ok (k', t) -> calm_chords k'.
Proof.
  intros K H. apply (liftok_events calm_chords (fun _ => True)) with (fuel := fuel) (k := k) (evs := evs) (t := t); auto.
  - intros k0 code pressed time r K0 _ E. rewrite chord_plan_open in E.
    + apply Ok_inj in E. subst r. exact K0.
    + split; [apply K0|]. right. apply aloof_unchorded. now apply calm_aloof.
  - intros k0 [K1 [_ K3]]. split; [exact K1|]. split; [reflexivity|exact K3].
  - intros k0 code pressed time r K0 _ E. unfold pending_plan in E.
    destruct (_ =? 0)%N; [apply Ok_inj in E; subst r; exact K0|].
    destruct (_ && _); [discriminate|]. destruct (_ && _); [apply Ok_inj in E; subst r; exact K0|].
    cbv zeta in E. destruct (has_op _).
    + bstep E k3 E3. apply Ok_inj in E. subst r. cbn [pplan_ok]. split; [|apply Forall_forall; auto].
      unfold decide, do_desc in E3. apply pd_frame in E3 as [F1 [_ [F3 [F4 _]]]].
      match type of F1 with _ = k_cfg ?x => set (k9 := x) in * end.
      assert (X : k_cfg k9 = k_cfg k0 /\ k_chord k9 = k_chord k0 /\ k_achords k9 = k_achords k0).
      { subst k9. destruct (cache_set _ _ _) as [k8|] eqn:E8; [|split; [|split]; reflexivity].
        apply cache_set_frame in E8 as [A1 [A2 [A3 [A4 _]]]]. rewrite A1, A3, A4. split; [|split]; reflexivity. }
      destruct X as [X1 [X2 X3]]. unfold calm_chords. rewrite F1, F3, F4, X1, X2, X3. exact K0.
    + apply Ok_inj in E. subst r. exact K0.
  - intros k0 code pressed time k1 K0 _ _ E. apply rest_frame in E as [F1 [_ [F3 [F4 _]]]].
    unfold calm_chords. rewrite F1, F3, F4. exact K0.
  - apply Forall_forall. auto.
Qed.
Lemma reach_calm c k : reach chordless c k -> calm_chords k.
Proof.
  intros H. induction H as [clk Hk Hg|k fuel evs k' t Hr IH H|k exp k' ok Hr IH H HG|k k' Hr IH H].
  - split; [exact Hg|]. split; [reflexivity|]. intros ac Ha. cbn [new_keyboard k_achords] in Ha.
    apply repeat_spec in Ha. subst. reflexivity.
  - eapply events_calm; eauto.
  - apply kbd_eval_shape in H as [c' ->]. destruct IH as [_ IH]. split; [exact HG|exact IH].
  - destruct H; exact IH.
Qed.
