(* Between press and release of an overload key: what the engine remembers about it. *)
From Verif Require Import Base Lib Keys Types MacroExec Kbd Config Steps Hist SpecHist SpecLookup SpecActions SpecWf Wf
  SpecKept SpecOverload ModsProofs LookupProofs Engine ActProofs StepProofs OneProofs CacheProofs Inv LiftOk ClassInv
  ParseWf WfHist KeptProofs PlainProofs SpecPlain SpecMods TermProofs Retime SpecDefer DeferProofs Times.
Local Open Scope nat_scope.
Local Open Scope list_scope.

(* more fuel, same result *)
Lemma pd_mono : forall f f' k code d dl pressed time, f <= f' ->
  rle (process_descriptor f k code d dl pressed time) (process_descriptor f' k code d dl pressed time).
Proof.
  induction f as [|f IH]; intros f' k code d dl pressed time Hf; [now left|].
  destruct f' as [|f']; [lia|]. cbn [process_descriptor].
  apply rle_bind; [apply rle_refl|]. intros k0.
  apply rle_bind; [|intros; apply rle_refl].
  destruct d; try apply rle_refl.
  - apply rle_bind; [apply rle_refl|]. intros ac. destruct pressed; [apply rle_refl|].
    apply rle_bind; [apply rle_refl|]. intros k1. cbv zeta. destruct (_ && _); [|apply rle_refl].
    destruct ac; try apply rle_refl; (apply rle_bind; [apply IH; lia|intros; apply IH; lia]).
  - destruct pressed; [|apply rle_refl]. apply rle_bind; [apply rle_refl|]. intros ac.
    apply rle_bind; [apply IH; lia|intros; apply rle_refl].
Qed.
Lemma pd_more f f' k code d dl pressed time k' : f <= f' ->
  process_descriptor f k code d dl pressed time = Ok k' -> process_descriptor f' k code d dl pressed time = Ok k'.
Proof. intros Hf H. destruct (pd_mono f f' k code d dl pressed time Hf) as [E|E]; congruence. Qed.

Lemma pd_press_last f k code d dl time k' : process_descriptor f k code d dl true time = Ok k' -> k_last_code k' = code.
Proof.
  intros H. destruct f; [discriminate|]. cbn [process_descriptor] in H. bstep H k0 E0. bstep H k1 E1. apply Ok_inj in H.
  subst k'. reflexivity.
Qed.
(* a release: taken for the last key pressed only if that is so, or after a tap *)
Definition kept_mark (code : N) (k k' : kbd) : Prop :=
  (k_last_code k' = k_last_code k \/ k_last_code k' = code)
  /\ (k_last_code k <> code -> k_last_code k' = k_last_code k /\ k_ovl_start k' = k_ovl_start k).
Lemma mark_same code k k' : k_last_code k' = k_last_code k -> k_ovl_start k' = k_ovl_start k -> kept_mark code k k'.
Proof. intros E1 E2. split; auto. Qed.
Lemma pd_release_mark : forall f k code d dl time k',
  process_descriptor f k code d dl false time = Ok k' -> kept_mark code k k'.
Proof.
  induction f as [|f IH]; intros k code d dl time k' H; [discriminate|].
  cbn [process_descriptor pre_macro bind] in H. bstep H k1 E1. apply Ok_inj in H. subst k'. rename E1 into H.
  assert (G : Ok k = Ok k1 -> kept_mark code k k1).
  { intros X. apply Ok_inj in X. subst. now apply mark_same. }
  destruct d; try (exact (G H)).
  - unfold pd_key in H. bstep H k2 E2. apply Ok_inj in E2, H. subst k2 k1.
    destruct (_ || _); apply mark_same; norm_states; reflexivity.
  - unfold pd_oneshot in H. destruct (k_latch k).
    + bstep H u Eu. cbv zeta in H. destruct (_ =? 0)%Z; [apply Ok_inj in H; subst; now apply mark_same|].
      apply mark_same; norm_states; reflexivity.
    + bstep H k2 E2. apply Ok_inj in H. subst k1. apply mark_same; norm_states; reflexivity.
  - unfold pd_oneshot in H. destruct (k_latch k).
    + bstep H u Eu. cbv zeta in H. destruct (_ =? 0)%Z; [apply Ok_inj in H; subst; now apply mark_same|].
      apply mark_same; norm_states; reflexivity.
    + bstep H k2 E2. apply Ok_inj in H. subst k1. apply mark_same; norm_states; reflexivity.
  - unfold pd_layer in H. bstep H k2 E2. apply Ok_inj in H. subst k1. apply mark_same; norm_states; reflexivity.
  - bstep H mm Em. apply Ok_inj in H. subst k1. destruct mm as [|[[] dt] [|]]; apply mark_same; norm_states; reflexivity.
  - unfold pd_layer in H. bstep H k2 E2. apply Ok_inj in H. subst k1. apply mark_same; norm_states; reflexivity.
  - bstep H ac Ea. bstep H k2 E2. cbv zeta in H. set (k3 := update_mods false k2 None 0) in *.
    assert (E3 : k_last_code k3 = k_last_code k /\ k_ovl_start k3 = k_ovl_start k).
    { subst k3. clear H. split; norm_states; reflexivity. }
    clearbody k3. destruct E3 as [E3 E4].
    destruct (_ && _) eqn:Eb in H; [|apply Ok_inj in H; subst; now apply mark_same].
    apply andb_true_iff in Eb as [Eb _]. apply N.eqb_eq in Eb.
    assert (Hc : k_last_code k = code) by congruence.
    assert (X : forall ka, k_last_code ka = code -> kept_mark code k ka).
    { intros ka X. split; [now right|]. intros Y. now elim Y. }
    assert (Z0 : (k4 <- process_descriptor f k3 code ac dl true time ;; process_descriptor f k4 code ac dl false time) = Ok k1 ->
       kept_mark code k k1).
    { clear H. intros H. bstep H k4 E. apply X. apply pd_press_last in E. apply IH in H as [[H|H] _]; congruence. }
    destruct ac; try (exact (Z0 H)). bstep H mm Em. apply Ok_inj in H. subst k1. apply X.
    destruct (execute_macro_only k3 dl mm) as [? [? [? ->]]]. exact Eb.
  - apply Ok_inj in H. subst. now apply mark_same.
  - apply Ok_inj in H. subst. now apply mark_same.
Qed.
Lemma do_release_mark k code d dl time k' : do_desc k code d dl false time = Ok k' -> kept_mark code k k'.
Proof. apply pd_release_mark. Qed.

Lemma expire_mark k time k' : expire_oneshot k time = Ok k' ->
  k_last_code k' = k_last_code k /\ k_ovl_start k' = k_ovl_start k.
Proof.
  unfold expire_oneshot. destruct (_ && _); [|intros H; apply Ok_inj in H; now subst]. intros H.
  bstep H k1 E. apply Ok_inj in H. subst k'. split; norm_states; reflexivity.
Qed.
Lemma run_macro_mark k code time k' : run_active_macro k code time = Ok k' ->
  k_last_code k' = k_last_code k /\ k_ovl_start k' = k_ovl_start k.
Proof.
  unfold run_active_macro. destruct (k_amacro k); [|intros H; apply Ok_inj in H; now subst].
  destruct (negb _); [intros H; apply Ok_inj in H; subst; split; norm_states; reflexivity|].
  destruct (_ <=? _)%Z; [|intros H; apply Ok_inj in H; now subst]. intros H.
  bstep H mm Em. apply schedule_ok in H. subst k'. cbv zeta.
  destruct (execute_macro_only k (k_amacro_layer k) mm) as [? [? [? ->]]]. now split.
Qed.

(* ---- any other keys in between ------------------------------------------------------ *)
Section Between.
Variables (x : N) (d : desc) (dl l : nat) (s : Z) (held0 : list N).
Hypothesis Hx : physical x.
Lemma Hx0 : x <> 0%N.
Proof. apply Hx. Qed.

(* as long as x counts as the last key pressed, no key has come down since *)
Definition calm_since (k : kbd) : Prop :=
  k_last_code k = x -> k_ovl_start k = s /\ forall c, c <> 0%N -> In c (map ce_code (k_cache k)) -> In c held0.

Let I (k : kbd) : Prop := kept False x d dl l k /\ calm_since k.

Lemma evols_codes sw c k k' : evols sw c k k' -> map ce_code (k_cache k') = map ce_code (k_cache k).
Proof. unfold evols. intros H. induction H as [|e e' r r' [E _] _ IH]; cbn [map]; congruence. Qed.
Lemma cache_set_drop k c k' : cache_set k c None = Some k' -> c <> 0%N ->
  k_last_code k' = k_last_code k /\ k_ovl_start k' = k_ovl_start k
  /\ forall y, y <> 0%N -> In y (map ce_code (k_cache k')) -> In y (map ce_code (k_cache k)).
Proof.
  intros H Hc. apply cache_set_spec in H as [i [e [-> [Hi [_ Ee]]]]]. split; [reflexivity|]. split; [reflexivity|].
  cbn [k_cache set_k_cache]. intros y Hy Hin. rewrite map_upd in Hin. apply In_upd in Hin as [Hin|Hin]; auto.
  exfalso. apply Hy. rewrite Hin. subst e. reflexivity.
Qed.
Lemma between_key k c pressed time k' : c <> x -> handle_key k c pressed time = Ok k' -> I k -> I k'.
Proof.
  intros Hc H [K C]. assert (K' : kept False x d dl l k') by (eapply handle_key_kept; eauto using Hx0). split; [exact K'|].
  unfold handle_key in H. destruct (N.eqb_spec c 0) as [E0|E0]; [apply Ok_inj in H; now subst|].
  destruct pressed.
  - destruct (cache_get k c); [apply Ok_inj in H; now subst|]. destruct (lookup_descriptor k c) as [d' dl'].
    destruct (cache_set _ _ _) as [k1|]; [|apply Ok_inj in H; now subst].
    apply pd_press_last in H. intros E. congruence.
  - destruct (cache_get k c) as [i|] eqn:Eg; [|apply Ok_inj in H; now subst].
    destruct (cache_set _ _ _) as [k1|] eqn:E; [|apply Ok_inj in H; now subst].
    pose proof E as E9. apply cache_set_drop in E as [E1 [E2 E3]]; auto.
    pose proof (do_release_mark _ _ _ _ _ _ H) as [M1 M2].
    intros Hl. destruct (N.eq_dec (k_last_code k1) c) as [Y|Y]; [destruct M1; congruence|].
    destruct (M2 Y) as [M3 M4]. destruct (C ltac:(congruence)) as [C1 C2]. split; [congruence|].
    intros y Hy Hin. apply C2; auto. apply E3; auto.
    assert (V : evols False c k1 k').
    { eapply (pd_evols False); [exact H|eapply cache_set_uniq; [exact E9|apply K]|]. right.
      destruct K as [[_ [_ [[]|K]]] _]. destruct K as [[_ [_ K1]] [K2 _]]. split.
      - apply K2. apply in_map, nth_In. apply cache_find_at in Eg as [_ [Eg _]]. lia.
      - apply cache_set_frame in E9 as [Ec _]. rewrite Ec. exact K1. }
    now rewrite <- (evols_codes _ _ _ _ V).
Qed.
Lemma between_events fuel k evs k' t : Forall (about_others x) evs ->
  kbd_process_events fuel k evs = Ok (k', t) -> I k -> decided k x -> I k' /\ decided k' x.
Proof.
  intros He H [K C] D.
  destruct (events_kept False x d dl l (proj1 Hx) (or_introl (fun f => f)) _ _ _ _ _ Hx He H K D) as [K' D'].
  split; [|exact D']. destruct D as [D1 [D2 D3]].
  assert (G : IQ I (about_others x) k').
  { apply (simple_events I (about_others x)) with (fuel := fuel) (k := k) (evs := evs) (t := t); auto.
    - intros t0. destruct Hx as [Hz _]. intros Ex. apply Hz. symmetry. exact Ex.
    - intros k0 i p t0 [[[_ [L _]] _] _] Hi Ex. destruct Hx as [_ Hn]. apply Hn.
      cbn [ev_code] in Ex. rewrite <- Ex. unfold chord_code, K_CHORD_1, K_CHORD_MAX. lia.
    - intros k0 k1 [[[U [L A]] [R Hp]] C0] Cc. pose proof Cc as [q [acs [ts [-> [La _]]]]]. split; [|exact C0].
      split; [split; [exact U|split; [cbn; lia|]]|split; [exact R|exact Hp]].
      destruct A as [[]|A]; auto. right. eapply chord_alld; eauto using nonswap_closed.
    - intros k0 q a time k1 [K0 C0] Hp Ha Ho Hd. split.
      + unfold decide in Hd. cbn [p_code p_dl set_p_queue] in Hd.
        assert (Hpc : p_code (k_pend k0) <> x) by apply K0.
        assert (Hn : False \/ nonswap a).
        { destruct K0 as [[_ [_ [[]|K0]]] _]; auto. right.
          destruct K0 as [_ [_ [_ [K1 K2]]]]. destruct Ha as [->| ->]; auto. }
        eapply (pd_kept False x d dl l (proj1 Hx) (or_introl (fun f => f))); [exact Hpc|exact Hn|exact Hd|].
        set (k2 := set_k_pend (set_p_code 0%N (set_p_queue [] (set_p_queue q (k_pend k0)))) k0).
        assert (K2 : kept False x d dl l k2).
        { destruct K0 as [[U [L A]] [R Hq]]. split; [split; [exact U|split; [exact L|exact A]]|split; [exact R|]].
          destruct Hx as [Hz _]. intros Ex. apply Hz. symmetry. exact Ex. }
        destruct (cache_set k2 _ _) as [k3|] eqn:E; [|exact K2].
        eapply cache_set_kept2; eauto using Hx0. now intros e [= <-].
      + unfold decide in Hd. apply pd_press_last in Hd. cbn [p_code set_p_queue] in Hd.
        intros Hl. assert (p_code (k_pend k0) <> x) by apply K0. congruence.
    - intros k0 c' pressed time k1 [K0 C0] Hq Hr. unfold rest_step in Hr. bstep Hr k3 E3. bstep Hr k4 E4.
      eapply between_key; [exact Hq|exact Hr|].
      pose proof (expire_mark _ _ _ E3) as [X1 X2]. pose proof (run_macro_mark _ _ _ _ E4) as [X3 X4].
      pose proof (expire_cp _ _ _ E3) as [_ X5]. pose proof (run_macro_cp _ _ _ _ E4) as [_ X6].
      split.
      + apply (same_cache_kept False x d dl l k3); [|eapply run_macro_frame; eauto|eapply run_macro_cp; eauto|eapply run_macro_cp; eauto].
        apply (same_cache_kept False x d dl l k0); [exact K0|eapply expire_frame; eauto|eapply expire_cp; eauto|eapply expire_cp; eauto].
      + unfold calm_since. rewrite X3, X1, X4, X2, X6, X5. exact C0.
    - split; [split; assumption|]. split; apply Forall_forall; auto. unfold live. intros e He0. apply D3.
      + unfold striking. destruct (h_state _); auto; destruct He0.
      + destruct (h_state _); auto; destruct He0. }
  apply G.
Qed.
Lemma between_meanwhile (G : config -> Prop) k k' : (forall c, G c -> swap_free c) -> meanwhile G x k k' ->
  I k -> decided k x -> I k' /\ decided k' x.
Proof.
  intros HG M. induction M as [k|k fuel evs k1 t k2 He H M IH|k exp k1 ok k2 H Hg M IH]; intros K D; auto.
  - destruct (between_events _ _ _ _ _ He H K D) as [K1 D1]. auto.
  - apply kbd_eval_shape in H as [c ->]. apply IH; [|exact D].
    destruct K as [[[U [L A]] [R Hp]] C]. split; [|exact C]. split; [split; [exact U|split; [exact L|]]|split; [exact R|exact Hp]].
    destruct A as [[]|A]; auto. right.
    destruct A as [_ A]. split; [|exact A]. apply swap_free_all. now apply HG.
Qed.

(* ---- no press in between ------------------------------------------------------------ *)
Definition quiet (k : kbd) : Prop :=
  (k_last_code k = x /\ k_ovl_start k = s) /\ p_code (k_pend k) = 0%N /\ h_state (k_chord k) = CsInactive
  /\ length (k_achords k) <= 3.
Lemma chord_low i : i < 3 -> chord_code i <> x.
Proof. intros Hi E. destruct Hx as [_ Hn]. apply Hn. rewrite <- E. unfold chord_code, K_CHORD_1, K_CHORD_MAX. lia. Qed.
Lemma quiet_chord k code time r : quiet k -> chord_plan k code false time = Ok r -> plan_fine quiet (no_press x) time r.
Proof.
  intros [Q1 [Q2 [Q3 Q4]]] H. unfold chord_plan in H. cbv zeta in H.
  destruct (if negb (code =? 0)%N && negb false then chord_of_key (k_achords k) code 0 else None) as [i|] eqn:E.
  - destruct (_ && _); [|discriminate E]. apply chord_of_key_spec in E as [E _].
    destruct (chord_up k code i) as [k1 rem] eqn:Eu. apply Ok_inj in H. subst r.
    assert (K : quiet k1).
    { unfold chord_up in Eu. apply pair_equal_spec in Eu as [<- _]. split; [exact Q1|]. split; [exact Q2|]. split; [exact Q3|].
      cbn [k_achords set_k_achords]. now rewrite upd_length. }
    destruct rem; cbn [plan_fine]; [exact K|]. split; [exact K|]. split; [|reflexivity]. cbn [ev_code]. apply chord_low. lia.
  - rewrite Q3 in H. cbv zeta in H. set (k0 := set_k_chord (set_h_match None (set_h_queue [] (k_chord k))) k) in *.
    bstep H k1 E1.
    assert (K1 : quiet k1 /\ forall e, In e (h_queue (k_chord k1)) -> ev_pressed e = false).
    { unfold enqueue_chord_event in E1. destruct (code =? 0)%N.
      - apply Ok_inj in E1. subst k1. split; [split; [exact Q1|split; [exact Q2|split; [exact Q3|exact Q4]]]|]. intros e [].
      - destruct (Nat.ltb _ _); [|discriminate E1]. apply Ok_inj in E1. subst k1.
        split; [split; [exact Q1|split; [exact Q2|split; [exact Q3|exact Q4]]]|].
        intros e [<-|[]]. reflexivity. }
    destruct K1 as [K1 K2]. rewrite check_chord_match_none in H.
    + apply Ok_inj in H. subst r. exact K1.
    + intros i ch _ _ _. unfold chord_event_match.
      assert (X : forall q n, (forall e, In e q -> ev_pressed e = false) -> chord_presses (ch_keys ch) q n = Some n).
      { induction q as [|e q IH]; intros n Hq; [reflexivity|]. cbn [chord_presses]. rewrite (Hq e (or_introl eq_refl)).
        apply IH. intros e' He'. apply Hq. now right. }
      now rewrite X by exact K2.
Qed.
Lemma quiet_rest k code time k' : code <> x -> quiet k -> rest_step k code false time = Ok k' -> quiet k'.
Proof.
  intros Hc [[Q1 Q1b] [Q2 [Q3 Q4]]] H. pose proof (rest_frame _ _ _ _ _ H) as [_ [_ [F3 [F4 _]]]].
  assert (X : (k_last_code k' = x /\ k_ovl_start k' = s) /\ p_code (k_pend k') = 0%N).
  { unfold rest_step in H. bstep H k3 E3. bstep H k4 E4.
    pose proof (expire_mark _ _ _ E3) as [X1 X2]. pose proof (run_macro_mark _ _ _ _ E4) as [X3 X4].
    pose proof (expire_cp _ _ _ E3) as [[X5 _] _]. pose proof (run_macro_cp _ _ _ _ E4) as [[X6 _] _].
    assert (Y1 : k_last_code k4 = x) by congruence. assert (Y2 : k_ovl_start k4 = s) by congruence.
    assert (Y3 : p_code (k_pend k4) = 0%N) by congruence.
    clear -H Y1 Y2 Y3 Hc. unfold handle_key in H. destruct (code =? 0)%N eqn:E0; [apply Ok_inj in H; subst; auto|].
    apply N.eqb_neq in E0.
    destruct (cache_get k4 code) as [i|] eqn:Eg; [|apply Ok_inj in H; subst; auto].
    destruct (cache_set _ _ _) as [k5|] eqn:E; [|apply Ok_inj in H; subst; auto].
    assert (Ep : k_pend k5 = k_pend k4) by (apply cache_set_spec in E as [i1 [e1 [-> _]]]; reflexivity).
    apply cache_set_drop in E as [E1 [E2 _]]; auto.
    pose proof (do_release_mark _ _ _ _ _ _ H) as [_ M].
    destruct M as [M1 M2]; [congruence|]. split; [split; congruence|].
    pose proof (keep_release (k_pend k5) k5 code (ce_d (cache_nth k4 i)) (ce_dl (cache_nth k4 i)) time ltac:(congruence)) as Y.
    replace (set_k_pend (k_pend k5) k5) with k5 in Y by (now destruct k5).
    rewrite H in Y. cbn [mapr] in Y. apply Ok_inj in Y. rewrite Y. cbn [k_pend set_k_pend]. congruence. }
  destruct X as [X1 X2]. split; [exact X1|]. split; [exact X2|]. rewrite F3, F4. auto.
Qed.
Lemma quiet_events fuel k evs k' t : Forall (no_press x) evs ->
  kbd_process_events fuel k evs = Ok (k', t) -> quiet k -> quiet k'.
Proof.
  intros He H Q. eapply (liftok_events quiet (no_press x)); [..|exact Q|exact He|exact H].
  - intros _ t0 _ _. split; [|reflexivity]. cbn [ev_code]. intros E. apply (proj1 Hx). now symmetry.
  - intros k0 code pressed time r Q0 [H1 H2] Hr. cbn [ev_pressed] in H2. subst pressed. eapply quiet_chord; eauto.
  - intros k0 Q0. destruct Q0 as [Q1 [Q2 [Q3 Q4]]]. split; [exact Q1|]. split; [exact Q2|]. split; [reflexivity|exact Q4].
  - intros k0 code pressed time r Q0 _ Hr. unfold pending_plan in Hr. pose proof Q0 as [_ [Q2 _]]. rewrite Q2 in Hr.
    cbn [N.eqb] in Hr. apply Ok_inj in Hr. subst r. exact Q0.
  - intros k0 code pressed time k1 Q0 [H1 H2] _ Hr. cbn [ev_pressed] in H2. subst pressed. eapply quiet_rest; eauto.
  - intros k0 e Q0 _. destruct Q0 as [Q1 [Q2 [Q3 Q4]]]. split; [exact Q1|]. split; [exact Q2|]. split; [exact Q3|exact Q4].
Qed.
Lemma quiet_undisturbed (G : config -> Prop) k k' : undisturbed G x k k' -> quiet k -> quiet k'.
Proof.
  intros M. induction M as [k|k fuel evs k1 t k2 He H M IH|k exp k1 ok k2 H Hg M IH]; intros Q; auto.
  - apply IH. eapply quiet_events; eauto.
  - apply IH. apply kbd_eval_shape in H as [c ->]. exact Q.
Qed.
End Between.

Lemma undisturbed_meanwhile G x k k' : undisturbed G x k k' -> meanwhile G x k k'.
Proof.
  intros M. induction M as [k|k fuel evs k1 t k2 He H M IH|k exp k1 ok k2 H Hg M IH].
  - constructor.
  - eapply mw_events; [|exact H|exact IH]. eapply Forall_impl; [|exact He]. now intros e [X _].
  - eapply mw_eval; eauto.
Qed.

(* ---- press and release themselves ----------------------------------------------------- *)
Lemma overload_press k x l a dl time k' : do_desc k x (DOverload l a) dl true time = Ok k' ->
  only_layer k k' l true /\ k_last_code k' = x /\ k_ovl_start k' = time
  /\ k_cache k' = set_ce_layer (k_cache k) x l /\ h_state (k_chord k') = h_state (k_chord k)
  /\ k_achords k' = k_achords k.
Proof.
  unfold do_desc, pd_fuel. cbn [process_descriptor pre_macro bind]. intros H. bstep H k1 E1.
  apply Ok_inj in H. subst k'. bstep E1 ac Ea. bstep E1 k2 E2. apply Ok_inj in E1. subst k1.
  apply activate_ok in E2 as [b ->].
  set (k2 := set_k_cache _ _). destruct (modseg_update false k2 None 0%N) as [seg [E F]].
  destruct (update_mods_only false k2 None 0%N) as [lo [ks [o X]]]. rewrite X in E |- *. cbn [kk k_out set_k_out] in E.
  split; [|repeat split].
  match goal with |- only_layer _ ?y _ _ => set (kf := y) end.
  assert (L1 : k_ls kf l = mkLst (k_clock k) ((l_active (k_ls k l) + 1) mod 256) (l_toggled (k_ls k l)) (l_depth (k_ls k l)))
    by (apply nupd_same).
  assert (L2 : forall i, i <> l -> k_ls kf i = k_ls k i) by (intros i Hi; now apply nupd_other).
  split; [unfold count; now rewrite L1|].
  split; [unfold toggled; now rewrite L1|].
  split; [unfold oneshots; now rewrite L1|].
  split; [exact L2|].
  split; [exists b, seg; split; [|exact F]|repeat split].
  unfold since. rewrite <- app_assoc. exact E.
Qed.
Lemma overload_release k x l a dl time k' : do_desc k x (DOverload l a) dl false time = Ok k' ->
  exists kd, only_layer k kd l false /\ k_last_code kd = k_last_code k /\ k_ovl_start kd = k_ovl_start k
    /\ count k l <> 0%N
    /\ ((k_last_code k <> x \/ ~ short (k_cfg k) (k_ovl_start k) time) -> k' = kd)
    /\ (k_last_code k = x -> short (k_cfg k) (k_ovl_start k) time ->
        performed kd x (nth a (c_descs (k_cfg k)) DNone) dl time k').
Proof.
  unfold do_desc, pd_fuel. cbn [process_descriptor pre_macro bind]. intros H. bstep H k1 E1.
  apply Ok_inj in H. subst k'. rename E1 into H. bstep H ac Ea. bstep H k2 E2. cbv zeta in H.
  apply deactivate_ok in E2 as [Hc [b ->]].
  match type of H with context [update_mods false ?y None 0] => set (k2 := y) in * end.
  destruct (modseg_update false k2 None 0%N) as [seg [E F]].
  destruct (update_mods_only false k2 None 0%N) as [lo [ks [o X]]]. rewrite X in E, H. cbn [kk k_out set_k_out] in E.
  set (kd := kk lo ks o k2) in *. exists kd.
  assert (Eac : ac = nth a (c_descs (k_cfg k)) DNone).
  { unfold desc_at in Ea. destruct (N.ltb _ _); [|discriminate Ea]. now apply Ok_inj in Ea. }
  assert (Eb : k_cfg kd = k_cfg k) by reflexivity.
  assert (El : k_last_code kd = k_last_code k) by reflexivity.
  assert (Eo : k_ovl_start kd = k_ovl_start k) by reflexivity.
  split; [|split; [exact El|split; [exact Eo|split; [exact Hc|]]]].
  { assert (L1 : k_ls kd l = set_l_active (l_active (k_ls k l) - 1) (k_ls k l)) by (apply nupd_same).
    assert (L2 : forall i, i <> l -> k_ls kd i = k_ls k i) by (intros i Hi; now apply nupd_other).
    split; [unfold count; now rewrite L1|].
    split; [unfold toggled; now rewrite L1|].
    split; [unfold oneshots; now rewrite L1|].
    split; [exact L2|].
    split; [exists b, seg; split; [|exact F]|repeat split].
    unfold since. rewrite <- app_assoc. exact E. }
  assert (Ef : pd_fuel kd = S (S (length (c_descs (k_cfg k))))) by (unfold pd_fuel; now rewrite Eb).
  clearbody kd. rewrite El, Eo, Eb in H.
  destruct (_ && _) eqn:Et in H.
  - rewrite andb_true_iff, orb_true_iff, N.eqb_eq, Z.eqb_eq, Z.ltb_lt in Et. destruct Et as [T1 T2].
    split; [intros [Y|Y]; [now elim Y|]; elim Y; exact T2|]. intros _ _. rewrite <- Eac.
    assert (G : (k3 <- process_descriptor (S (length (c_descs (k_cfg k)))) kd x ac dl true time ;;
                 process_descriptor (S (length (c_descs (k_cfg k)))) k3 x ac dl false time) = Ok k1 ->
                (forall m, ac <> DMacro m) -> performed kd x ac dl time k1).
    { clear H. intros H Hm. bstep H k3 E3. apply pf_plain with k3; auto.
      - unfold do_desc. rewrite Ef. eapply pd_more; [|exact E3]. lia.
      - pose proof (pd_frame _ _ _ _ _ _ _ _ E3) as [F1 _].
        unfold do_desc, pd_fuel. rewrite F1, Eb. eapply pd_more; [|exact H]. lia. }
    destruct ac; try (apply G; [exact H|discriminate]).
    bstep H mm Em. apply Ok_inj in H. subst k1. unfold macro_at in Em.
    destruct (Nat.ltb_spec m MAX_MACROS); [|discriminate Em]. apply Ok_inj in Em. subst mm. now constructor.
  - apply Ok_inj in H. subst k1. split; [reflexivity|]. intros T1 T2. exfalso.
    assert (Y : (k_last_code k =? x)%N && ((c_tap_timeout (k_cfg k) =? 0)%Z || (time - k_ovl_start k <? c_tap_timeout (k_cfg k))%Z) = true).
    { rewrite andb_true_iff, orb_true_iff, N.eqb_eq, Z.eqb_eq, Z.ltb_lt. split; [exact T1|exact T2]. }
    congruence.
Qed.
