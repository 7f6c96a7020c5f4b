(* What the engine remembers follows the fingers (C25, second part). *)
From Verif Require Import Base Lib Keys Types MacroExec Kbd Config Steps Hist Outside SpecTrace SpecMods SpecLookup
  SpecHist SpecActions SpecKept SpecDefer SpecAccount SpecNotation SpecStuck TraceProofs ModsProofs LookupProofs Engine SpecWf Wf ActProofs StepProofs OneProofs
  CacheProofs Inv ClassInv ParseWf WfHist KeptProofs LiftOk Account DeferProofs StuckProofs.

Definition fate (x : N) (evs : list kev) (b : bool) : bool :=
  fold_left (fun b e => if (ev_code e =? x)%N then ev_pressed e else b) evs b.
Lemma fate_app x a b s : fate x (a ++ b) s = fate x b (fate x a s).
Proof. apply fold_left_app. Qed.
Lemma fate_mono x evs : forall a b, (a = true -> b = true) -> fate x evs a = true -> fate x evs b = true.
Proof.
  induction evs as [|e evs IH]; intros a b H; cbn [fate fold_left]; auto. apply IH. destruct (_ =? _)%N; auto.
Qed.
Definition hasb (x : N) (k : kbd) : bool := existsb (fun p => (fst p =? x)%N) (cds (k_cache k)).
Definition st (x : N) (k : kbd) : bool := fate x (p_queue (k_pend k)) (hasb x k).
Lemma hasb_cds x k k' : cds (k_cache k') = cds (k_cache k) -> hasb x k' = hasb x k.
Proof. unfold hasb. now intros ->. Qed.

Section Life.
Variable T : nat -> desc.
Variable K : nat -> bool.
Variable M : nat -> N.
Variable tg : bool.
Variable n : nat.
Variable x : N.
Hypothesis Hx : x <> 0%N.
Let J := J T K M tg.

Lemma existsb_upd {A} (f : A -> bool) l j y : existsb f (upd j y l) = true -> f y = true \/ existsb f l = true.
Proof.
  revert j. induction l as [|a l IH]; intros [|j]; cbn [upd existsb]; auto; rewrite !orb_true_iff; intros [H|H]; auto.
  destruct (IH _ H); auto.
Qed.
(* the codes remembered after a press and after a release *)
Lemma rest_has k code pressed time k' : J k -> passed k code pressed -> rest_step k code pressed time = Ok k' ->
  hasb x k' = true -> fate x [mkKev code pressed time] (hasb x k) = true.
Proof.
  intros Jk Hps Hr. unfold rest_step in Hr. bstep Hr k3 E3. bstep Hr k4 E4.
  pose proof (expire_J _ _ _ _ _ _ _ E3 Jk) as J3. destruct (run_macro_J _ _ _ _ _ _ _ _ E4 J3) as [J4 _].
  pose proof (expire_cp _ _ _ E3) as [_ C3]. pose proof (run_macro_cp _ _ _ _ E4) as [_ C4].
  assert (Eh : hasb x k = hasb x k4) by (unfold hasb; congruence).
  rewrite Eh. clear Eh C3 C4 E3 E4 J3. cbn [fate fold_left ev_code ev_pressed]. unfold handle_key in Hr.
  destruct J4 as [J1 J2 U J4 _ _ _ _].
  destruct (N.eqb_spec code 0) as [Hz|Hz].
  { apply Ok_inj in Hr. subst k' code. destruct (N.eqb_spec 0 x); [congruence|auto]. }
  destruct pressed.
  - destruct (N.eqb_spec code x) as [Ex|Ex]; auto.
    destruct (cache_get k4 code) eqn:Eg; [apply Ok_inj in Hr; now subst|].
    destruct (lookup_descriptor k4 code) as [d dl] eqn:El.
    assert (Hd : good T K M tg d) by (eapply lookup_alld; eauto using good_closed).
    destruct (cache_set _ _ _) as [k1|] eqn:E; [|apply Ok_inj in Hr; now subst].
    pose proof (cache_set_uniq _ _ _ _ E U) as U1.
    apply cache_set_spec in E as [j [e [-> [Hj [Hc ->]]]]]. cbn [ce_d ce_dl ce_layer] in *.
    match type of Hr with do_desc ?kx _ _ _ _ _ = _ => set (k1 := kx) in * end.
    assert (Hc1 : cds (k_cache k1) = upd j (code, d) (cds (k_cache k4))).
    { subst k1. kcbn. rewrite cds_upd. reflexivity. }
    assert (He : at_entry k1 j code d).
    { split; [subst k1; kcbn; now rewrite upd_length|]. rewrite Hc1. apply nth_upd_same. now rewrite cds_length. }
    unfold do_desc in Hr.
    destruct (press_to T K M tg (pd_fuel k1) k1 j code d dl time k' J1 J4 Hd U1 Hz He Hr) as [d' [_ [P1 _]]].
    unfold hasb. rewrite P1, Hc1, upd_upd. intros H. apply existsb_upd in H as [H|H]; auto.
    cbn [fst] in H. apply N.eqb_eq in H. congruence.
  - destruct (cache_get k4 code) as [j|] eqn:Eg.
    + apply cache_find_at in Eg as [_ [Eg1 Eg2]]. rewrite Nat.sub_0_r in *.
      destruct (cache_set _ _ _) as [k1|] eqn:E.
      2:{ exfalso. unfold cache_set in E. destruct (cache_slot _ _ _ _) eqn:Es; [discriminate E|]. clear - Es Eg1 Eg2.
          assert (X : forall l n s, In (nth j (k_cache k4) zero_ce) l -> cache_slot l code n s <> None).
          { induction l as [|e l IH]; intros n s Hin; [destruct Hin|]. cbn [cache_slot].
            destruct (N.eqb_spec (ce_code e) code); [discriminate|]. destruct Hin as [->|Hin]; [congruence|]. now apply IH. }
          apply (X (k_cache k4) 0 None); auto. now apply nth_In. }
      apply cache_set_spec in E as [y [e [-> [Hy [Hc ->]]]]].
      assert (Ey : y = j).
      { destruct Hc as [Hc|[_ Hc]]; [|exfalso; apply (Hc _ (nth_In _ zero_ce Eg1) Eg2)]. apply U; auto; congruence. }
      subst y. clear Hc. unfold cache_nth in Hr. set (d := ce_d (nth j (k_cache k4) zero_ce)) in *.
      match type of Hr with do_desc ?kx _ _ _ _ _ = _ => set (k1 := kx) in * end.
      assert (Td : good T K M tg d). { destruct J2 as [_ [J2 _]]. apply J2, in_map, nth_In, Eg1. }
      unfold do_desc in Hr.
      destruct (release_cds T K M tg (pd_fuel k1) k1 code d (ce_dl (nth j (k_cache k4) zero_ce)) time k' J1 Td Hr) as [F7 _].
      assert (Hc1 : cds (k_cache k1) = upd j (0%N, d) (cds (k_cache k4))).
      { subst k1. kcbn. rewrite cds_upd. reflexivity. }
      unfold hasb. rewrite F7, Hc1. intros H. destruct (N.eqb_spec code x) as [Ex|Ex].
      * exfalso. subst code. apply existsb_exists in H as [[c0 d0] [H1 H2]]. cbn [fst] in H2. apply N.eqb_eq in H2. subst c0.
        apply (In_nth _ _ (0%N, DNone)) in H1 as [i [H1 H2]]. rewrite upd_length, cds_length in H1.
        destruct (Nat.eq_dec i j) as [->|Hne].
        -- rewrite nth_upd_same in H2 by (now rewrite cds_length). apply pair_equal_spec in H2 as [H2 _]. congruence.
        -- rewrite nth_upd_other in H2 by auto. rewrite cds_nth in H2. apply pair_equal_spec in H2 as [H2 _].
           apply Hne. apply U; auto; congruence.
      * apply existsb_upd in H as [H|H]; auto. cbn [fst] in H. apply N.eqb_eq in H. congruence.
    + apply Ok_inj in Hr. subst k'. destruct (N.eqb_spec code x) as [Ex|Ex]; auto. intros H. exfalso. subst code.
      unfold hasb in H. apply existsb_exists in H as [[c0 d0] [H1 H2]]. cbn [fst] in H2. apply N.eqb_eq in H2. subst c0.
      apply (In_nth _ _ (0%N, DNone)) in H1 as [i [H1 H2]]. rewrite cds_length in H1. rewrite cds_nth in H2.
      apply pair_equal_spec in H2 as [H2 _]. unfold cache_get in Eg. rewrite (find_unique _ i x) in Eg; auto. discriminate.
Qed.
Lemma decide_has k q a time k' : J k -> p_code (k_pend k) <> 0%N ->
  a = p_a1 (k_pend k) \/ a = p_a2 (k_pend k) ->
  decide k (set_p_queue q (k_pend k)) a time = Ok k' -> hasb x k' = true -> hasb x k = true.
Proof.
  intros Jk Hz Ha H. pose proof Jk as [J1 J2 J3 J4 J5 J6 J7 J8]. unfold decide in H. cbn [p_code p_dl set_p_queue] in H.
  set (k2 := set_k_pend (set_p_code 0%N (set_p_queue [] (set_p_queue q (k_pend k)))) k) in *.
  assert (Td : good T K M tg a). { destruct J2 as [_ [_ [_ [X1 X2]]]]. destruct Ha as [->| ->]; auto. }
  destruct (J8 Hz) as [j [d [[G1 G2] G3]]].
  assert (Hc : ce_code (nth j (k_cache k) zero_ce) = p_code (k_pend k)).
  { rewrite cds_nth in G2. now apply pair_equal_spec in G2. }
  destruct (cache_set k2 _ _) as [k3|] eqn:E.
  - pose proof (cache_set_uniq _ _ _ _ E J3) as U3.
    apply cache_set_spec in E as [y [e [-> [Hy [Hcy ->]]]]]. change (k_cache k2) with (k_cache k) in *.
    assert (Ey : y = j).
    { destruct Hcy as [Hcy|[_ Hcy]]; [|exfalso; apply (Hcy _ (nth_In _ zero_ce G1) Hc)]. apply J3; auto; congruence. }
    subst y. clear Hcy. cbn [ce_d ce_dl ce_layer] in *. unfold do_desc in H.
    match type of H with process_descriptor _ ?kx _ _ _ _ _ = _ => set (k1 := kx) in * end.
    assert (Hc1 : cds (k_cache k1) = upd j (p_code (k_pend k), a) (cds (k_cache k))).
    { subst k1. kcbn. rewrite cds_upd. reflexivity. }
    assert (He : at_entry k1 j (p_code (k_pend k)) a).
    { split; [subst k1; kcbn; now rewrite upd_length|]. rewrite Hc1. apply nth_upd_same. now rewrite cds_length. }
    destruct (press_to T K M tg (pd_fuel k1) k1 j (p_code (k_pend k)) a (p_dl (k_pend k)) time k' J1 J4 Td U3 Hz He H) as [d' [_ [P1 _]]].
    unfold hasb. rewrite P1, Hc1, upd_upd. intros X. apply existsb_upd in X as [X|X]; auto. cbn [fst] in X.
    apply existsb_exists. exists (p_code (k_pend k), d). split; [|exact X]. rewrite <- G2. apply nth_In. now rewrite cds_length.
  - exfalso. unfold cache_set in E. change (k_cache k2) with (k_cache k) in E.
    destruct (cache_slot _ _ _ _) eqn:Es; [discriminate E|]. clear - Es G1 Hc.
    assert (X : forall l n s, In (nth j (k_cache k) zero_ce) l -> cache_slot l (p_code (k_pend k)) n s <> None).
    { induction l as [|e l IH]; intros n s Hin; [destruct Hin|]. cbn [cache_slot].
      destruct (N.eqb_spec (ce_code e) (p_code (k_pend k))); [discriminate|].
      destruct Hin as [->|Hin]; [congruence|]. now apply IH. }
    apply (X (k_cache k) 0 None); auto. now apply nth_In.
Qed.
Lemma decide_queue_nil k q a time k' : decide k (set_p_queue q (k_pend k)) a time = Ok k' -> p_queue (k_pend k') = [].
Proof.
  intros H. unfold decide, do_desc in H. apply pd_frame in H as [_ [_ [_ [_ [F5 _]]]]]. rewrite F5.
  destruct (cache_set _ _ _) as [k8|] eqn:E8; [|reflexivity].
  apply cache_set_spec in E8 as [j [e [-> _]]]. reflexivity.
Qed.
Lemma fate_none : forall q b, (forall e, In e q -> ev_code e <> x) -> fate x q b = b.
Proof.
  induction q as [|e q IH]; intros b H; auto. cbn [fate fold_left]. destruct (N.eqb_spec (ev_code e) x) as [E|].
  - exfalso. apply (H e); [now left|exact E].
  - apply IH. intros e0 H0. apply H. now right.
Qed.


(* ---- undecided keys always have actions to choose from --------------------------------- *)
Let F := firm_desc T n.
Lemma firm_closed : closed F.
Proof. split; intros; exact Logic.I. Qed.
Definition sure (k : kbd) : Prop :=
  (p_code (k_pend k) = 0%N -> p_queue (k_pend k) = [])
  /\ (p_code (k_pend k) <> 0%N -> p_a1 (k_pend k) <> DNone /\ p_a2 (k_pend k) <> DNone
       /\ forall e, In e (p_queue (k_pend k)) -> ev_code e <> p_code (k_pend k)).
Record W (k : kbd) : Prop := {
  w_J : J k;
  w_calm : calm_chords k;
  w_all : alld F k;
  w_count : n <= length (c_descs (k_cfg k));
  w_sure : sure k }.
Lemma firm_at k a d : neat T K M tg (k_cfg k) -> n <= length (c_descs (k_cfg k)) -> a < n /\ T a <> DNone -> desc_at k a = Ok d -> d <> DNone.
Proof.
  clear x Hx. intros Jk Hn [Ha Ht] H. unfold desc_at in H. destruct (_ <? _)%N in H; [|discriminate H]. apply Ok_inj in H. subst d.
  rewrite (tm_nested _ _ _ (nt_tame _ _ _ _ _ Jk)) by lia. exact Ht.
Qed.
Definition chosen (k k' : kbd) (code : N) : Prop :=
  k_pend k' = k_pend k \/ (p_code (k_pend k') = code /\ p_a1 (k_pend k') <> DNone /\ p_a2 (k_pend k') <> DNone).
Lemma set_pending_kinds k code dl ex b a1 a2 k' : a1 <> DNone -> a2 <> DNone ->
  set_pending k code dl ex b a1 a2 = Ok k' -> chosen k k' code.
Proof.
  intros H1 H2 H. unfold set_pending in H. cbv zeta in H. right.
  unfold schedule_timeout in H. destruct (_ <? _) in H; [|discriminate H]. apply Ok_inj in H. subst k'. auto.
Qed.

Lemma press_firm fuel : forall k j code d0 d dl time k', neat T K M tg (k_cfg k) -> alld F k ->
  n <= length (c_descs (k_cfg k)) -> good T K M tg d -> F d -> at_entry k j code d0 ->
  process_descriptor fuel k code d dl true time = Ok k' -> chosen k k' code.
Proof.
  induction fuel as [|fuel IH]; intros k j code d0 d dl time k' Hk A Hn Hd Hf He H; [discriminate|].
  destruct (is_overloadi d) eqn:Eo.
  - destruct d; try discriminate Eo.
    apply pd_unfold in H as [k0 [k1 [E0 [-> E1]]]]. cbn [pre_macro] in E0. apply Ok_inj in E0. subst k0.
    bstep E1 ac Ea. bstep E1 k2 E2. apply Ok_inj in E1. subst k1.
    assert (X : k_pend (cache_replace_d k2 code ac) = k_pend k2).
    { unfold cache_replace_d. destruct (cache_find (k_cache k2) code 0); reflexivity. }
    unfold chosen. cbn [k_pend set_k_last_code]. rewrite X. change (chosen k k2 code). eapply IH; [exact Hk|exact A|exact Hn| |exact (desc_at_P F firm_closed _ _ _ A Ea)|exact He|exact E2].
    exact (proj1 (nested_good T K M tg _ _ _ Hk Ea)).
  - destruct (press_cds T K M tg _ _ _ _ _ _ _ _ _ Hk Hd Eo He H) as [_ [X|[_ X]]]; [now left|].
    destruct d; try discriminate X; apply pd_unfold in H as [k0 [k1 [E0 [-> E1]]]]; cbn [pre_macro] in E0; apply Ok_inj in E0; subst k0;
      change (chosen k k1 code).
    + bstep E1 ac Ea. eapply set_pending_kinds; [| |exact E1]; [|discriminate]. exact (firm_at _ _ _ Hk Hn Hf Ea).
    + bstep E1 ac Ea. eapply set_pending_kinds; [| |exact E1]; [|discriminate]. exact (firm_at _ _ _ Hk Hn Hf Ea).
    + bstep E1 y1 Ea. bstep E1 y2 Eb. destruct Hf as [Hf1 Hf2]. eapply set_pending_kinds; [| |exact E1]; [exact (firm_at _ _ _ Hk Hn Hf1 Ea)|exact (firm_at _ _ _ Hk Hn Hf2 Eb)].
Qed.
Lemma sure_pend k k' : k_pend k' = k_pend k -> sure k -> sure k'.
Proof. unfold sure. now intros ->. Qed.
Lemma sure_chosen k k' code : frame k k' -> p_queue (k_pend k) = [] -> code <> 0%N -> chosen k k' code -> sure k -> sure k'.
Proof.
  intros [_ [_ [_ [_ [Fq _]]]]] Hq Hz [E|[E [E1 E2]]] S; [now apply (sure_pend k)|].
  rewrite Hq in Fq. split; [congruence|]. intros _. split; auto. split; auto. rewrite Fq. intros e [].
Qed.
Lemma rest_sure k code pressed time k' : W k -> passed k code pressed -> rest_step k code pressed time = Ok k' -> sure k'.
Proof.
  intros [Jk _ A Hn S] Hps Hr. unfold rest_step in Hr. bstep Hr k3 E3. bstep Hr k4 E4.
  pose proof (expire_J _ _ _ _ _ _ _ E3 Jk) as J3. destruct (run_macro_J _ _ _ _ _ _ _ _ E4 J3) as [J4 _].
  pose proof (expire_frame _ _ _ E3) as F3. pose proof (run_macro_frame _ _ _ _ E4) as F4.
  pose proof (expire_cp _ _ _ E3) as C3. pose proof (run_macro_cp _ _ _ _ E4) as C4.
  apply (alld_cp _ k k3) in A; [|exact F3|apply C3]. apply (alld_cp _ k3 k4) in A; [|exact F4|apply C4].
  assert (Ep : k_pend k4 = k_pend k) by (destruct C3 as [[C3 _] _], C4 as [[C4 _] _]; congruence).
  assert (Hn4 : n <= length (c_descs (k_cfg k4))) by (destruct F3 as [F3 _], F4 as [F4 _]; congruence).
  assert (S4 : sure k4) by (now apply (sure_pend k)).
  assert (Hps4 : passed k4 code pressed) by (unfold passed; now rewrite Ep).
  clear E3 E4 F3 F4 C3 C4 J3 S Hn Hps Ep Jk k k3. unfold handle_key in Hr.
  destruct (N.eqb_spec code 0) as [Hz|Hz]; [apply Ok_inj in Hr; now subst|].
  destruct J4 as [J1 J2 U J4 _ _ _ _]. destruct pressed.
  - assert (Hp : p_code (k_pend k4) = 0%N) by (destruct Hps4 as [|[_ [X _]]]; [auto|discriminate X]).
    destruct (cache_get k4 code) eqn:Eg; [apply Ok_inj in Hr; now subst|].
    destruct (lookup_descriptor k4 code) as [d dl] eqn:El.
    assert (Hd : good T K M tg d) by (eapply lookup_alld; eauto using good_closed).
    assert (Hf : F d) by (eapply lookup_alld; eauto using firm_closed).
    destruct (cache_set _ _ _) as [k1|] eqn:E; [|apply Ok_inj in Hr; now subst].
    pose proof (cache_set_alld F _ _ _ _ E) as A1.
    assert (XA1 : alld F _) by (apply A1; [intros e [= <-]; exact Hf|exact A]). clear A1. rename XA1 into A1.
    apply cache_set_spec in E as [j [e [-> [Hj [Hc ->]]]]]. cbn [ce_d ce_dl ce_layer] in *.
    match type of Hr with do_desc ?kx _ _ _ _ _ = _ => set (k1 := kx) in * end.
    assert (He : at_entry k1 j code d).
    { split; [subst k1; kcbn; now rewrite upd_length|]. subst k1. kcbn. rewrite cds_upd. cbn [ce_code ce_d].
      apply nth_upd_same. now rewrite cds_length. }
    unfold do_desc in Hr. apply (sure_chosen k1 k' code); auto.
    + eapply pd_frame; eauto.
    + apply S4. exact Hp.
    + eapply press_firm; [exact J1|exact A1|exact Hn4|exact Hd|exact Hf|exact He|exact Hr].
  - destruct (cache_get k4 code) as [j|] eqn:Eg; [|apply Ok_inj in Hr; now subst].
    apply cache_find_at in Eg as [_ [Eg1 Eg2]]. rewrite Nat.sub_0_r in *.
    destruct (cache_set _ _ _) as [k1|] eqn:E; [|apply Ok_inj in Hr; now subst].
    apply cache_set_spec in E as [y [e [-> _]]].
    unfold do_desc in Hr. apply (sure_pend k4); [|exact S4]. unfold cache_nth in Hr.
    eapply release_cds in Hr as [_ Hr]; [exact Hr|exact J1|]. destruct J2 as [_ [J2 _]]. apply J2, in_map, nth_In, Eg1.
Qed.
Lemma decide_sure k q a time k' : W k -> p_code (k_pend k) <> 0%N -> a = p_a1 (k_pend k) \/ a = p_a2 (k_pend k) ->
  decide k (set_p_queue q (k_pend k)) a time = Ok k' -> sure k'.
Proof.
  intros [Jk _ A Hn S] Hz Ha H. pose proof Jk as [J1 J2 J3 J4 J5 J6 J7 J8]. unfold decide in H. cbn [p_code p_dl set_p_queue] in H.
  set (k2 := set_k_pend (set_p_code 0%N (set_p_queue [] (set_p_queue q (k_pend k)))) k) in *.
  assert (Td : good T K M tg a). { destruct J2 as [_ [_ [_ [X1 X2]]]]. destruct Ha as [->| ->]; auto. }
  assert (Fd : F a). { destruct A as [_ [_ [_ [X1 X2]]]]. destruct Ha as [->| ->]; auto. }
  destruct (J8 Hz) as [j [d [[G1 G2] G3]]].
  assert (Hc : ce_code (nth j (k_cache k) zero_ce) = p_code (k_pend k)).
  { rewrite cds_nth in G2. now apply pair_equal_spec in G2. }
  assert (A2 : alld F k2). { destruct A as [A1 [A2 [A3 [A4 A5]]]]. repeat split; auto; apply A1. }
  destruct (cache_set k2 _ _) as [k3|] eqn:E.
  - pose proof (cache_set_alld F _ _ _ _ E) as A3.
    assert (XA3 : alld F _) by (apply A3; [intros e [= <-]; exact Fd|exact A2]). clear A3. rename XA3 into A3.
    apply cache_set_spec in E as [y [e [-> [Hy [Hcy ->]]]]]. change (k_cache k2) with (k_cache k) in *.
    cbn [ce_d ce_dl ce_layer] in *. unfold do_desc in H.
    match type of H with process_descriptor _ ?kx _ _ _ _ _ = _ => set (k1 := kx) in * end.
    assert (He : at_entry k1 y (p_code (k_pend k)) a).
    { split; [subst k1; kcbn; now rewrite upd_length|]. subst k1. kcbn. rewrite cds_upd. cbn [ce_code ce_d].
      apply nth_upd_same. now rewrite cds_length. }
    apply (sure_chosen k1 k' (p_code (k_pend k))); auto.
    + eapply pd_frame; eauto.
    + eapply press_firm; [exact J1|exact A3|exact Hn|exact Td|exact Fd|exact He|exact H].
    + split; [reflexivity|]. intros X. now elim X.
  - exfalso. unfold cache_set in E. change (k_cache k2) with (k_cache k) in E.
    destruct (cache_slot _ _ _ _) eqn:Es; [discriminate E|]. clear - Es G1 Hc.
    assert (X : forall l n s, In (nth j (k_cache k) zero_ce) l -> cache_slot l (p_code (k_pend k)) n s <> None).
    { induction l as [|e l IH]; intros n s Hin; [destruct Hin|]. cbn [cache_slot].
      destruct (N.eqb_spec (ce_code e) (p_code (k_pend k))); [discriminate|].
      destruct Hin as [->|Hin]; [congruence|]. now apply IH. }
    apply (X (k_cache k) 0 None); auto. now apply nth_In.
Qed.
(* the pending stage, with what it leaves *)
Lemma pending_shape k code pressed time r : W k -> pending_plan k code pressed time = Ok r ->
  exists q, (if (code =? 0)%N then q = p_queue (k_pend k) else q = p_queue (k_pend k) ++ [mkKev code pressed time])
  /\ ( (r = (k, PPass) /\ passed k code pressed)
     \/ (p_code (k_pend k) <> 0%N /\ code <> p_code (k_pend k) /\ r = (set_k_pend (set_p_queue q (k_pend k)) k, PTaken))
     \/ (p_code (k_pend k) <> 0%N /\ exists k3 a, (a = p_a1 (k_pend k) \/ a = p_a2 (k_pend k))
          /\ decide k (set_p_queue q (k_pend k)) a time = Ok k3 /\ r = (k3, PReplay q))).
Proof.
  intros Wk E. destruct r as [kr pl]. pose proof (pending_plan_pass k code pressed time kr) as Hps.
  unfold pending_plan in E. cbv zeta in E.
  exists (if (code =? 0)%N then p_queue (k_pend k) else p_queue (k_pend k) ++ [mkKev code pressed time]).
  split; [now destruct (code =? 0)%N|].
  destruct (N.eqb_spec (p_code (k_pend k)) 0) as [Hz|Hz].
  { apply Ok_inj in E. injection E as <- <-. left. split; auto. now left. }
  destruct (_ && _) eqn:E1 in E; [discriminate E|]. destruct (_ && _) eqn:E2 in E.
  { assert (pl = PPass) by (apply Ok_inj in E; congruence). subst pl. left.
    destruct Hps as [-> Hps]; auto. unfold pending_plan. cbv zeta. rewrite (proj2 (N.eqb_neq _ _) Hz), E1, E2. exact E. }
  set (q1 := if (code =? 0)%N then p_queue (k_pend k) else p_queue (k_pend k) ++ [mkKev code pressed time]) in *.
  assert (Ep : (if (code =? 0)%N then k_pend k
          else set_p_queue (p_queue (k_pend k) ++ [mkKev code pressed time]) (k_pend k))
          = set_p_queue q1 (k_pend k)).
  { subst q1. destruct (code =? 0)%N; auto. now destruct (k_pend k). }
  right. rewrite Ep in E. destruct (has_op _) eqn:Eo in E.
  - bstep E k3 E3. apply Ok_inj in E. injection E as <- <-. right. split; auto. exists k3.
    apply pending_action_src in Eo as [Eo|Eo]; rewrite Eo in E3; eauto.
  - apply Ok_inj in E. injection E as <- <-. left. split; auto. split; auto. intros ->.
    destruct (w_sure _ Wk) as [_ S]. destruct (S Hz) as [S1 [S2 _]].
    unfold pending_action in Eo. cbn [p_expire p_code p_a1 p_a2 set_p_queue] in Eo. rewrite N.eqb_refl in Eo.
    destruct (_ <=? _)%Z in Eo; [apply S2; destruct (p_a2 (k_pend k))|apply S1; destruct (p_a1 (k_pend k))];
      solve [reflexivity|discriminate Eo].
Qed.
Lemma seen_W k code pressed time : W k -> W (chord_seen k code pressed time).
Proof.
  intros [[J1 J2 J3 J4 J5 J6 J7 J8] W2 W3 W4 W5]. split; auto. split; auto.
Qed.
Lemma frame_calm k k' : frame k k' -> calm_chords k -> calm_chords k'.
Proof. intros [F1 [_ [F3 [F4 _]]]]. unfold calm_chords. now rewrite F1, F3, F4. Qed.
Lemma handle_J k code pressed time k' : J k -> passed k code pressed -> rest_step k code pressed time = Ok k' -> J k'.
Proof.
  intros H0 Hp Hr. unfold rest_step in Hr. bstep Hr k3 E3. bstep Hr k4 E4.
  pose proof (expire_J _ _ _ _ _ _ _ E3 H0) as J3. destruct (run_macro_J _ _ _ _ _ _ _ _ E4 J3) as [J4 Hm].
  eapply handle_key_J; [exact Hr| |exact Hm|exact J4].
  assert (Ep : k_pend k4 = k_pend k).
  { apply expire_cp in E3 as [[E3 _] _]. apply run_macro_cp in E4 as [[E4 _] _]. congruence. }
  unfold passed. now rewrite Ep.
Qed.
Lemma rest_W k code pressed time k' : W k -> passed k code pressed -> rest_step k code pressed time = Ok k' -> W k'.
Proof.
  intros Wk Hps Hr. pose proof (rest_sure _ _ _ _ _ Wk Hps Hr) as S. destruct Wk as [W1 W2 W3 W4 W5].
  pose proof (rest_frame _ _ _ _ _ Hr) as Fr. split.
  - eapply handle_J; eauto.
  - eapply frame_calm; eauto.
  - eapply rest_alld; eauto using firm_closed.
  - destruct Fr as [-> _]. exact W4.
  - exact S.
Qed.
Lemma decide_W k q a time k' : W k -> p_code (k_pend k) <> 0%N -> a = p_a1 (k_pend k) \/ a = p_a2 (k_pend k) ->
  decide k (set_p_queue q (k_pend k)) a time = Ok k' -> W k'.
Proof.
  intros Wk Hz Ha H. pose proof (decide_sure _ _ _ _ _ Wk Hz Ha H) as S. destruct Wk as [W1 W2 W3 W4 W5].
  assert (X : k_cfg k' = k_cfg k /\ k_chord k' = k_chord k /\ k_achords k' = k_achords k).
  { clear - H. unfold decide, do_desc in H. apply pd_frame in H as [F1 [_ [F3 [F4 _]]]]. rewrite F1, F3, F4.
    destruct (cache_set _ _ _) as [k8|] eqn:E8; [|split; [|split]; reflexivity].
    apply cache_set_frame in E8 as [A1 [A2 [A3 [A4 _]]]]. rewrite A1, A3, A4. split; [|split]; reflexivity. }
  destruct X as [X1 [X2 X3]]. split.
  - exact (decide_J T K M tg _ _ _ _ _ W1 Hz Ha H).
  - unfold calm_chords. rewrite X1, X2, X3. exact W2.
  - pose proof W3 as [_ [_ [_ [A1 A2]]]].
    eapply decide_alld; [apply firm_closed|exact H| | | |exact W3]; auto. destruct Ha as [->| ->]; auto.
  - rewrite X1. exact W4.
  - exact S.
Qed.
Lemma pending_W k code pressed time r : W k -> pending_plan k code pressed time = Ok r -> pplan_ok W (fun _ => True) r.
Proof.
  intros Wk E. apply pending_shape in E as [q [Hq [[-> _]|[[Hz [Hne ->]]|[Hz [k3 [a [Ha [E ->]]]]]]]]]; auto.
  - destruct Wk as [[J1 J2 J3 J4 J5 J6 J7 J8] W2 W3 W4 W5]. split; auto.
    + split; auto.
    + split; [intros X; now elim Hz|]. intros _. destruct W5 as [_ S]. destruct (S Hz) as [S1 [S2 S3]]. split; auto. split; auto.
      cbn [k_pend set_k_pend p_queue set_p_queue p_code]. destruct (code =? 0)%N; subst q; auto.
      intros e He. apply in_app_iff in He as [He|[<-|[]]]; auto.
  - split; [|apply Forall_forall; auto]. eapply decide_W; eauto.
Qed.
Lemma events_W fuel k evs k' t : W k -> kbd_process_events fuel k evs = Ok (k', t) -> W k'.
Proof.
  intros Wk H. apply (liftok_events W (fun _ => True)) with (fuel := fuel) (k := k) (evs := evs) (t := t); auto.
  - intros k0 code pressed time r K0 _ E. rewrite chord_plan_open in E.
    + apply Ok_inj in E. subst r. now apply seen_W.
    + split; [apply K0|]. right. apply aloof_unchorded. apply calm_aloof, K0.
  - intros k0 [[J1 J2 J3 J4 J5 J6 J7 J8] [W21 [W22 W23]] W3 W4 W5]. split; auto; split; auto.
  - intros k0 code pressed time r K0 _ E. eapply pending_W; eauto.
  - intros k0 code pressed time k1 K0 _ Hp E. eapply rest_W; eauto.
  - intros k0 e [[J1 J2 J3 J4 J5 J6 J7 J8] W2 W3 W4 W5] _. split; auto. split; auto.
  - apply Forall_forall. auto.
Qed.
Lemma event_W fuel k code pressed time k' t : W k -> process_event fuel k code pressed time = Ok (k', t) -> W k'.
Proof. intros A H. apply one_event in H. eapply events_W; eauto. Qed.

(* ---- the memory follows the fingers ------------------------------------------------------ *)
Lemma st_loop pe : (forall k code pressed time k' t, W k -> pe k code pressed time = Ok (k', t) ->
     W k' /\ (st x k' = true -> fate x [mkKev code pressed time] (st x k) = true)) ->
  forall fuel k evs t ts k' t', W k -> pe_loop pe fuel k evs t ts = Ok (k', t') ->
  st x k' = true -> fate x evs (st x k) = true.
Proof.
  intros Hpe. induction fuel as [|fuel IH]; intros k evs t ts k' t' Hk H; destruct evs as [|ev rest]; cbn [pe_loop] in H.
  1, 3: apply Ok_inj in H; injection H as <- _; auto.
  - discriminate.
  - destruct (_ && _).
    + bstep H r1 E1. destruct r1 as [k1 t1]. destruct (Hpe _ _ _ _ _ _ Hk E1) as [Hk1 H1].
      intros Hs. apply (fate_mono x (ev :: rest) (st x k1)); [|eapply IH; eauto].
      intros Y. apply H1 in Y. cbn [fate fold_left ev_code] in Y. destruct (N.eqb_spec 0 x); [congruence|exact Y].
    + bstep H r1 E1. destruct r1 as [k1 t1]. destruct (Hpe _ _ _ _ _ _ Hk E1) as [Hk1 H1].
      intros Hs. change (ev :: rest) with ([ev] ++ rest). rewrite fate_app.
      apply (fate_mono x rest (st x k1)); [|eapply IH; eauto]. destruct ev. exact H1.
Qed.
Lemma pass_st k code pressed time k' : W k -> passed k code pressed -> rest_step k code pressed time = Ok k' ->
  st x k' = true -> fate x [mkKev code pressed time] (st x k) = true.
Proof.
  intros [Jk _ _ _ [Hq Hq2]] Hps Hr. pose proof (rest_frame _ _ _ _ _ Hr) as [_ [_ [_ [_ [F5 _]]]]].
  pose proof (rest_has _ _ _ _ _ Jk Hps Hr) as Hh. unfold st. rewrite F5.
  destruct Hps as [Hp|[Hz [-> [Hne Hno]]]].
  - rewrite (Hq Hp). exact Hh.
  - intros H. cbn [fate fold_left ev_code ev_pressed] in Hh |- *. destruct (N.eqb_spec code x) as [E|E].
    + subst code. rewrite fate_none in H by exact Hno. auto.
    + fold (fate x (p_queue (k_pend k)) (hasb x k)). eapply fate_mono; eauto.
Qed.
Lemma pe_st : forall fuel k code pressed time k' t, W k ->
  process_event fuel k code pressed time = Ok (k', t) ->
  st x k' = true -> fate x [mkKev code pressed time] (st x k) = true.
Proof.
  induction fuel as [|fuel IH]; intros k code pressed time k' t Wk H; [discriminate|].
  assert (IHl : forall f k evs t ts k' t', W k -> pe_loop (process_event fuel) f k evs t ts = Ok (k', t') ->
    st x k' = true -> fate x evs (st x k) = true).
  { apply st_loop. intros. split; [eapply event_W; eauto|eapply IH; eauto]. }
  cbn [process_event] in H. rewrite process_event_plan in H. rewrite chord_plan_open in H.
  2:{ split; [apply Wk|]. right. apply aloof_unchorded. apply calm_aloof, Wk. }
  cbn [bind run_plan] in H. apply (seen_W _ code pressed time) in Wk.
  change (st x k) with (st x (chord_seen k code pressed time)).
  set (k0 := chord_seen k code pressed time) in *. clearbody k0. clear k.
  unfold after_chord in H. bstep H rb E. destruct rb as [k1 b1]. bstep E rp Ep.
  pose proof (pending_W _ _ _ _ _ Wk Ep) as W1.
  apply pending_shape in Ep as [q [Hq [[-> Hps]|[[Hz [Hne ->]]|[Hz [k3 [a [Ha [E3 ->]]]]]]]]]; auto; cbn [run_pplan] in E.
  - apply Ok_inj in E. injection E as <- <-. bstep H k5 E5. apply Ok_inj in H.
    unfold calculate_main_loop_timeout in H. apply pair_equal_spec in H as [<- _].
    change (st x k5 = true -> fate x [mkKev code pressed time] (st x k0) = true). eapply pass_st; eauto.
  - apply Ok_inj in E. injection E as <- <-. apply Ok_inj in H.
    unfold calculate_main_loop_timeout in H. apply pair_equal_spec in H as [<- _].
    unfold st. cbn [k_pend set_k_pend set_k_timeouts p_queue set_p_queue].
    match goal with |- fate x q ?h = true -> _ => change h with (hasb x k0) end.
    destruct (N.eqb_spec code 0) as [Ez|Ez]; subst q.
    + cbn [fate fold_left ev_code ev_pressed]. subst code. destruct (N.eqb_spec 0 x); [congruence|auto].
    + now rewrite fate_app.
  - bstep E r4 E4. destruct r4 as [k4 t4]. apply Ok_inj in E. injection E as <- <-. apply Ok_inj in H.
    unfold calculate_main_loop_timeout in H. apply pair_equal_spec in H as [<- _].
    change (st x k4 = true -> fate x [mkKev code pressed time] (st x k0) = true). intros Hs.
    destruct W1 as [W3 _]. pose proof (IHl _ _ _ _ _ _ _ W3 E4 Hs) as X.
    assert (Y : st x k3 = true -> hasb x k0 = true).
    { unfold st. rewrite (decide_queue_nil _ _ _ _ _ E3). apply (decide_has _ _ _ _ _ (w_J _ Wk) Hz Ha E3). }
    apply (fate_mono x q _ _ Y) in X. destruct (N.eqb_spec code 0) as [Ez|Ez]; subst q.
    + cbn [fate fold_left ev_code ev_pressed]. subst code. destruct (N.eqb_spec 0 x); [congruence|auto].
    + now rewrite fate_app in X.
Qed.
Lemma events_st fuel k evs k' t : W k -> kbd_process_events fuel k evs = Ok (k', t) ->
  st x k' = true -> fate x evs (st x k) = true.
Proof.
  intros Wk H. eapply st_loop; [|exact Wk|exact H]. intros. split; [eapply event_W; eauto|eapply pe_st; eauto].
Qed.
End Life.

Lemma firm_all T n c : firm T n c -> cfg_all (firm_desc T n) c.
Proof.
  intros [H1 H2 H3 H4]. split; [exact H3|]. split; [|exact H4]. intros i ch Hc. rewrite H1 in Hc. destruct Hc.
Qed.
Lemma fed_reach G c k evs : fed G c k evs -> reach G c k.
Proof. induction 1; eauto using reach_init, reach_events, reach_eval, reach_outside. Qed.
Lemma fed_W T K M tg n c k evs : fed (sound T K M tg n) c k evs -> W T K M tg n k.
Proof.
  induction 1 as [clk Hk Hg|k before fuel evs k' t Hr IH H|k before exp k' ok Hr IH H Hg|k before k' Hr IH H].
  - split.
    + apply init_J, Hg.
    + split; [apply (fm_chordless _ _ _ (proj2 Hg))|]. split; [reflexivity|]. intros ac Ha. cbn [new_keyboard k_achords] in Ha.
      apply repeat_spec in Ha. subst. reflexivity.
    + split; [apply firm_all, Hg|]. cbn [new_keyboard k_cache k_achords k_pend p_a1 p_a2].
      split; [|split; [|split; exact Logic.I]].
      * intros d Hd. apply in_map_iff in Hd as [e [<- Hd]]. apply repeat_spec in Hd. subst. exact Logic.I.
      * intros ac Hac. apply repeat_spec in Hac. subst. exact Logic.I.
    + apply (fm_count _ _ _ (proj2 Hg)).
    + split; [reflexivity|]. intros X. now elim X.
  - eapply events_W; eauto.
  - apply kbd_eval_shape in H as [c' ->]. destruct IH as [W1 [W21 W22] [_ W3] W4 W5]. split.
    + apply eval_J; [exact (proj1 Hg)|exact W1].
    + split; [apply (fm_chordless _ _ _ (proj2 Hg))|exact W22].
    + split; [apply firm_all, Hg|exact W3].
    + apply (fm_count _ _ _ (proj2 Hg)).
    + exact W5.
  - destruct IH as [W1 W2 W3 W4 W5]. pose proof (outside_J _ _ _ _ _ _ H W1) as W1'. destruct H; split; auto.
Qed.
Lemma fed_st T K M tg n c k evs x : x <> 0%N -> fed (sound T K M tg n) c k evs -> st x k = true -> finger x evs = true.
Proof.
  intros Hx. induction 1 as [clk Hk Hg|k before fuel evs k' t Hr IH H|k before exp k' ok Hr IH H Hg|k before k' Hr IH H].
  - unfold st, hasb. cbn [new_keyboard k_cache k_pend p_queue fate fold_left]. intros H. exfalso.
    apply existsb_exists in H as [[c0 d0] [H1 H2]]. unfold cds in H1. apply in_map_iff in H1 as [e [H1 H3]].
    apply repeat_spec in H3. subst e. injection H1 as <- _. cbn [fst] in H2. apply N.eqb_eq in H2. cbn in H2. congruence.
  - intros Hs. unfold finger. rewrite fold_left_app. fold (finger x before).
    change (fate x evs (finger x before) = true). apply (fate_mono x evs (st x k)); [exact IH|].
    eapply events_st; eauto. eapply fed_W; eauto.
  - apply kbd_eval_shape in H as [c' ->]. exact IH.
  - destruct H; exact IH.
Qed.
Lemma fed_none_held T K M tg n c k evs : fed (sound T K M tg n) c k evs -> hands_off evs -> none_held k.
Proof.
  intros Hf Hh. pose proof (fed_W _ _ _ _ _ _ _ _ Hf) as Wk.
  assert (St : forall x, x <> 0%N -> st x k = false).
  { intros x Hx. destruct (st x k) eqn:E; auto. apply (fed_st _ _ _ _ _ _ _ _ _ Hx Hf) in E. rewrite Hh in E; auto. }
  assert (Hp : p_code (k_pend k) = 0%N).
  { destruct (N.eq_dec (p_code (k_pend k)) 0) as [|Hz]; auto. exfalso.
    destruct (j_pend _ _ _ _ _ (w_J _ _ _ _ _ _ Wk) Hz) as [j [d [[G1 G2] G3]]].
    destruct (w_sure _ _ _ _ _ _ Wk) as [_ S]. destruct (S Hz) as [_ [_ S3]].
    specialize (St _ Hz). unfold st in St. rewrite fate_none in St by exact S3.
    unfold hasb in St. rewrite <- not_true_iff_false in St. apply St. apply existsb_exists.
    exists (p_code (k_pend k), d). split; [|apply N.eqb_refl]. rewrite <- G2. apply nth_In. now rewrite cds_length. }
  intros e He. destruct (N.eq_dec (ce_code e) 0) as [|Hz]; auto. exfalso. specialize (St _ Hz).
  unfold st in St. destruct (w_sure _ _ _ _ _ _ Wk) as [S _]. rewrite (S Hp) in St. cbn [fate fold_left] in St.
  unfold hasb in St. rewrite <- not_true_iff_false in St. apply St. apply existsb_exists.
  exists (ce_code e, ce_d e). split; [|apply N.eqb_refl]. unfold cds. apply in_map_iff. exists e. auto.
Qed.
