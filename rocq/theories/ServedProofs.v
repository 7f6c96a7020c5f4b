(* The invariant behind C84. *)
From Verif Require Import Base Lib Types Keys MacroExec Kbd Str MacroParse Config Match Outside Steps Hist Device Daemon SpecDaemon DaemonProofs EntryProofs
  SpecServed TimelyProofs.
From Verif Require SpecTimer PropTimer FileProofs.
Local Open Scope N_scope.
Local Notation timeline := SpecTimer.timeline.

(* what calls that do not run the engine do to a keyboard *)
Definition mild (k k' : kbd) : Prop :=
  k_timeouts k' = k_timeouts k /\ k_clock k' = k_clock k /\ forall c T, timeline c T k -> timeline c T k'.
Lemma mild_refl k : mild k k. Proof. split; [reflexivity|split; [reflexivity|auto]]. Qed.
Lemma mild_trans a b c : mild a b -> mild b c -> mild a c.
Proof. intros (A & B & C) (D & E & F). split; [congruence|split; [congruence|auto]]. Qed.
Lemma mild_eval k exp k' ok : kbd_eval k exp = Ok (k', ok) -> mild k k'.
Proof.
  intros H. pose proof (kbd_eval_shape _ _ _ _ H) as [c' E]. split; [subst; reflexivity|]. split; [subst; reflexivity|].
  intros c T Ht. eapply SpecTimer.tl_eval; eauto.
Qed.
Lemma mild_motion k x y : mild k (set_k_scroll (mkScroll x y (s_sens (k_scroll k)) (s_active (k_scroll k))) k).
Proof. split; [reflexivity|]. split; [reflexivity|]. intros c T H. eapply SpecTimer.tl_outside; [exact H|apply out_motion]. Qed.
Definition mildly (d d' : dstate) : Prop := d_gen d' = d_gen d /\ d_clock d' = d_clock d /\ Forall2 mild (d_ents d) (d_ents d').
Lemma F2_refl l : Forall2 mild l l. Proof. induction l; constructor; auto using mild_refl. Qed.
Lemma F2_trans a : forall b c, Forall2 mild a b -> Forall2 mild b c -> Forall2 mild a c.
Proof.
  induction a as [|x a IH]; intros b c H1 H2; inversion H1; subst; inversion H2; subst; constructor; eauto using mild_trans.
Qed.
Lemma mildly_refl d : mildly d d. Proof. split; [reflexivity|split; [reflexivity|apply F2_refl]]. Qed.
Lemma mildly_trans a b c : mildly a b -> mildly b c -> mildly a c.
Proof. intros (A & B & C) (D & E & F). split; [congruence|split; [congruence|eapply F2_trans; eauto]]. Qed.
Lemma mildly_same d d' : d_gen d' = d_gen d -> d_clock d' = d_clock d -> d_ents d' = d_ents d -> mildly d d'.
Proof. intros A B C. split; [exact A|split; [exact B|rewrite C; apply F2_refl]]. Qed.
Lemma mildly_ents d d' : same_ents d d' -> mildly d d'.
Proof. intros (A & B & C & _). now apply mildly_same. Qed.
Lemma F2_upd l : forall n k k', nth_error l n = Some k -> mild k k' -> Forall2 mild l (upd n k' l).
Proof.
  induction l as [|x l IH]; intros [|n] k k' H M; try discriminate; cbn [upd nth_error] in *.
  - injection H as ->. constructor; [exact M|apply F2_refl].
  - constructor; [apply mild_refl|eauto].
Qed.
Lemma eval_mild exp : forall ks ks' ok, eval_all ks exp = Ok (ks', ok) -> Forall2 mild ks ks'.
Proof.
  induction ks as [|k r IH]; cbn [eval_all]; intros ks' ok H; [apply Ok_inj in H; apply pair_equal_spec in H as [<- _]; constructor|].
  destruct (kbd_eval k exp) as [[k1 o1]| | |] eqn:E1; cbn [bind] in H; try discriminate H.
  destruct (eval_all r exp) as [[r1 o2]| | |] eqn:E2; cbn [bind] in H; try discriminate H.
  apply Ok_inj in H. apply pair_equal_spec in H as [<- _]. constructor; [eapply mild_eval; eauto|eauto].
Qed.
Definition steady (d d' : dstate) : Prop := mildly d d' /\ d_active d' = d_active d.
Lemma client_steady wr con m texts grabs d d' : i_type m <> IReload -> handle_client wr con m texts grabs d = Ok d' -> steady d d'.
Proof.
  intros Hn. apply (client_rel wr steady (fun _ => True) True False).
  - intros e. split; [apply mildly_refl|reflexivity].
  - intros a b c [A1 A2] [B1 B2]. split; [eapply mildly_trans; eauto|congruence].
  - intros v e _. split; [now apply mildly_same|reflexivity].
  - intros c s e. pose proof (dsend_ents c s e) as X. split; [now apply mildly_ents|apply X].
  - intros c e. split; [now apply mildly_same|reflexivity].
  - intros c e. split; [now apply mildly_same|reflexivity].
  - intros c e e' _ H.
    assert (X : same_ents e e'); [|split; [now apply mildly_ents|apply X]].
    revert H. apply listener_keeps; intros; try (repeat split; fail). eapply same_ents_trans; eauto.
  - intros exp e ks ok _ H. split; [|reflexivity]. split; [reflexivity|]. split; [reflexivity|]. cbn [d_ents set_d_ents]. eapply eval_mild; eauto.
  - intros ? ? ? ? [].
  - unfold permitted. destruct (i_type m); auto.
Qed.

(* ---- calls that do not run the engine --------------------------------------------------- *)
Lemma fold_emits vs : forall d, steady d (fold_left (fun d v => vemit v d) vs d).
Proof.
  induction vs as [|v vs IH]; intros d; cbn [fold_left]; [split; [apply mildly_refl|reflexivity]|].
  destruct (IH (vemit v d)) as [A B]. split; [|exact B]. eapply mildly_trans; [|exact A]. now apply mildly_same.
Qed.
Lemma fold_leds c s l : forall d, steady d (fold_left (fun (d : dstate) '(j, dv) => match dv_data dv with Some _ => vemit (VLed j c s) d | None => d end) l d).
Proof.
  induction l as [|[j dv] l IH]; intros d; cbn [fold_left]; [split; [apply mildly_refl|reflexivity]|].
  destruct (IH (match dv_data dv with Some _ => vemit (VLed j c s) d | None => d end)) as [A B]. split.
  - eapply mildly_trans; [|exact A]. destruct (dv_data dv); now apply mildly_same.
  - rewrite B. now destruct (dv_data dv).
Qed.
Lemma device_quiet fuel wr i de ts d d' r : runs_engine d (EvDev i de) = false -> device_event fuel wr i de ts d = Ok (d', r) ->
  mildly d d' /\ d_active d' = whose d (EvDev i de).
Proof.
  unfold runs_engine, device_event, whose, owner. destruct (nth_error (d_devs d) i) as [dv|]; [|discriminate].
  destruct (dv_data dv) as [p|].
  - set (d0 := set_d_active (Some p) d). assert (M0 : mildly d d0) by now apply mildly_same.
    intros Hr H. destruct (de_type de); try discriminate Hr.
    + apply Ok_inj, pair_equal_spec in H as [<- _]. split; [exact M0|reflexivity].
    + destruct (deref d0 p) as [k| | |] eqn:Ek; cbn [bind] in H; try discriminate H. destruct (s_active (k_scroll k)).
      * destruct (scroll_move _ _ _) as [[s vs]| | |] eqn:Es; cbn [bind] in H; try discriminate H. apply Ok_inj, pair_equal_spec in H as [<- _].
        destruct (fold_emits vs (store p (set_k_scroll s k) d0)) as [A B]. split; [|exact B].
        eapply mildly_trans; [|exact A]. eapply mildly_trans; [exact M0|]. split; [reflexivity|]. split; [reflexivity|].
        cbn [store d_ents set_d_ents]. eapply F2_upd.
        { unfold deref in Ek. destruct (Nat.eqb _ _); [|discriminate]. destruct (nth_error _ _) eqn:E; [|discriminate]. apply Ok_inj in Ek. subst. reflexivity. }
        unfold scroll_move in Es. destruct (s_sens (k_scroll k) =? 0)%Z.
        -- apply Ok_inj, pair_equal_spec in Es as [<- _]. destruct k; apply mild_refl.
        -- destruct (_ && _); [|discriminate]. apply Ok_inj, pair_equal_spec in Es as [<- _]. apply mild_motion.
      * apply Ok_inj, pair_equal_spec in H as [<- _]. split; [now apply mildly_same|reflexivity].
    + apply Ok_inj, pair_equal_spec in H as [<- _]. split; [now apply mildly_same|reflexivity].
    + apply negb_false_iff, andb_prop in Hr as [X Y]. rewrite X, Y in H. cbn [bind] in H. apply Ok_inj, pair_equal_spec in H as [<- _].
      split; [exact M0|reflexivity].
    + apply Ok_inj, pair_equal_spec in H as [<- _]. split; [exact M0|reflexivity].
  - intros Hr H. destruct (negb (dv_virtual dv) && _).
    + destruct (d_active d) as [p|] eqn:Ea.
      * destruct (de_type de); try discriminate Hr; apply Ok_inj, pair_equal_spec in H as [<- _]; split; auto using mildly_refl.
      * apply Ok_inj, pair_equal_spec in H as [<- _]; split; auto using mildly_refl.
    + destruct (dv_virtual dv).
      * destruct (de_type de); try (apply Ok_inj, pair_equal_spec in H as [<- _]; split; auto using mildly_refl; fail).
        apply Ok_inj, pair_equal_spec in H as [<- _]. apply fold_leds.
      * apply Ok_inj, pair_equal_spec in H as [<- _]; split; auto using mildly_refl.
Qed.

(* ---- calls that do ------------------------------------------------------------------------- *)
Definition aged (now : Z) (d : dstate) : Prop :=
  forall k, In k (d_ents d) -> (k_clock k <= d_clock d)%Z /\ exists c T, timeline c T k /\ (T <= now)%Z.
Definition served (now : Z) (p : kptr) (t : Z) (d d' : dstate) : Prop :=
  aged now d' /\ d_gen d' = d_gen d /\ d_active d' = d_active d /\ exists c k, deref d' p = Ok k /\ SpecTimer.told c now k t.
Lemma run_served fuel wr p ev d d' t : run_kbd fuel wr p ev d = Ok (d', t) -> aged (ev_time ev) d -> served (ev_time ev) p t d d'.
Proof.
  intros H Ag. apply run_inv in H as (k & k1 & d1 & E1 & E2 & E3 & ->).
  apply deliver_ents in E3 as (A & G & B & _ & Ac). cbn [d_ents d_clock d_gen d_active set_d_clock] in A, B, G, Ac.
  destruct (Ag _ (deref_in _ _ _ E1)) as [Ck (c & T & Tk & LT)].
  assert (M : (d_clock d <= k_clock k1)%Z).
  { apply kbd_process_events_steps in E2. apply steps_clock in E2. exact E2. }
  assert (Tk' : timeline c T (set_k_clock (d_clock d) k)) by (eapply SpecTimer.tl_outside; [exact Tk|now apply out_clock]).
  assert (Or : SpecTimer.ordered T [ev] (ev_time ev)) by (constructor; [exact LT|constructor]).
  assert (Lp : (snd p < length (d_ents d))%nat /\ fst p = d_gen d).
  { unfold deref in E1. destruct (Nat.eqb_spec (fst p) (d_gen d)); [|discriminate]. destruct (nth_error (d_ents d) (snd p)) eqn:En; [|discriminate].
    split; [|assumption]. apply nth_error_Some. now rewrite En. }
  split; [|split; [exact G|split; [exact Ac|]]].
  - intros x Hx. cbn [store d_ents d_clock set_d_ents] in *. rewrite B. rewrite A in Hx. apply In_upd in Hx as [->|Hx].
    + split; [lia|]. exists c, (ev_time ev). split; [eapply SpecTimer.tl_events; eauto|lia].
    + destruct (Ag _ Hx) as [X Y]. split; [lia|exact Y].
  - exists c, k1. split.
    + unfold deref. cbn [store d_gen d_ents set_d_ents]. rewrite G, A. destruct Lp as [L1 L2]. rewrite L2, Nat.eqb_refl.
      now rewrite (FileProofs.nth_upd k1 _ _ L1).
    + exists T, (set_k_clock (d_clock d) k), fuel, [ev]. split; [exact Tk'|]. split; [discriminate|]. split; [exact Or|exact E2].
Qed.
Lemma served_then now p q t u a b c : served now p t a b -> served now q u b c -> served now q u a c.
Proof. intros (A & B & C & D) (E & F & G & H). split; [exact E|]. split; [congruence|]. split; [congruence|exact H]. Qed.
Lemma press_served fuel wr p code ts d d' t : process_keypress fuel wr p code ts d = Ok (d', t) -> aged ts d -> served ts p t d d'.
Proof.
  unfold process_keypress. intros H Ag. destruct (run_kbd _ _ _ _ _) as [[d1 t1]| | |] eqn:E1; cbn [bind] in H; try discriminate H.
  apply run_served in E1; [|exact Ag]. apply run_served in H; [|exact (proj1 E1)]. eapply served_then; eauto.
Qed.
Lemma presses_served fuel wr p code ts : forall n tmo d d' t, keypresses fuel wr p code ts n tmo d = Ok (d', t) -> aged ts d -> n <> 0%nat -> served ts p t d d'.
Proof.
  induction n as [|n IH]; intros tmo d d' t H Ag Hn; [congruence|]. cbn [keypresses] in H.
  destruct (process_keypress _ _ _ _ _ _) as [[d1 t1]| | |] eqn:E1; cbn [bind] in H; try discriminate H.
  apply press_served in E1; [|exact Ag]. destruct n as [|n].
  - cbn [keypresses] in H. apply Ok_inj, pair_equal_spec in H as [<- <-]. exact E1.
  - apply IH in H; [|exact (proj1 E1)|discriminate]. eapply served_then; eauto.
Qed.
Lemma device_served fuel wr i de ts d d' r : runs_engine d (EvDev i de) = true -> device_event fuel wr i de ts d = Ok (d', r) -> aged ts d ->
  exists p t, r = Some t /\ whose d (EvDev i de) = Some p /\ d_active d' = Some p /\ served ts p t (set_d_active (Some p) d) d'.
Proof.
  unfold runs_engine, device_event, whose, owner. destruct (nth_error (d_devs d) i) as [dv|]; [|discriminate].
  destruct (dv_data dv) as [p|].
  - set (d0 := set_d_active (Some p) d). intros Hr H Ag. assert (Ag0 : aged ts d0) by exact Ag. exists p.
    assert (G : forall t x, served ts p t d0 x -> d_active x = Some p) by (intros t x (_ & _ & X & _); exact X).
    destruct (de_type de); try discriminate Hr.
    + destruct (run_kbd _ _ _ _ _) as [[d1 t1]| | |] eqn:E1; cbn [bind] in H; try discriminate H.
      apply Ok_inj, pair_equal_spec in H as [<- <-]. apply run_served in E1; [|exact Ag0]. exists t1. eauto.
    + apply negb_true_iff in Hr.
      assert (N : forall z, (z =? 0)%Z = false -> Z.to_nat (Z.abs z) <> 0%nat) by (intros z Hz; apply Z.eqb_neq in Hz; lia).
      destruct (de_x de =? 0)%Z eqn:Ex; cbn [bind] in H.
      * destruct (de_y de =? 0)%Z eqn:Ey; [discriminate Hr|].
        destruct (keypresses _ _ _ _ _ _ _ _) as [[d2 t2]| | |] eqn:E2; cbn [bind] in H; try discriminate H.
        apply Ok_inj, pair_equal_spec in H as [<- <-]. apply presses_served in E2; auto. exists t2. eauto.
      * destruct (keypresses _ _ _ _ _ _ _ d0) as [[d1 t1]| | |] eqn:E1; cbn [bind] in H; try discriminate H.
        apply presses_served in E1; auto. destruct (de_y de =? 0)%Z eqn:Ey; cbn [bind] in H.
        -- apply Ok_inj, pair_equal_spec in H as [<- <-]. exists t1. eauto.
        -- destruct (keypresses _ _ _ _ _ _ _ d1) as [[d2 t2]| | |] eqn:E2; cbn [bind] in H; try discriminate H.
           apply Ok_inj, pair_equal_spec in H as [<- <-]. apply presses_served in E2; auto; [|exact (proj1 E1)].
           pose proof (served_then _ _ _ _ _ _ _ _ E1 E2). exists t2. eauto.
  - intros Hr H Ag. destruct (d_active d) as [p|] eqn:Ea; [|now rewrite andb_false_r in Hr].
    apply andb_prop in Hr as [Hr1 Hr2]. rewrite andb_true_r in Hr1. rewrite Hr1 in H.
    assert (X : exists t, process_keypress fuel wr p K_EXTERNAL_MOUSE ts d = Ok (d', t) /\ r = Some t).
    { destruct (de_type de); try discriminate Hr2;
        destruct (process_keypress _ _ _ _ _ _) as [[d1 t1]| | |] eqn:E1; cbn [bind] in H; try discriminate H;
        apply Ok_inj, pair_equal_spec in H as [<- <-]; eauto. }
    destruct X as (t & E & ->). exists p, t. apply press_served in E; [|exact Ag].
    destruct E as (A & B & C & D). split; [reflexivity|]. split; [reflexivity|]. split; [congruence|]. split; [exact A|]. split; [exact B|]. split; [|exact D]. cbn. congruence.
Qed.

(* ---- the invariant --------------------------------------------------------------------------- *)
Definition told_so (calls : list (dstate * event * Z * Z)) (k : kbd) : Prop :=
  exists c T, latest calls = Some T /\ timeline c T k /\ forall x, In x (k_timeouts k) -> exists D, deadline calls = Some D /\ (D <= x)%Z.
Definition Inv (l : lstate) (now : Z) : Prop :=
  (0 <= now)%Z /\ aged now (lp_d l)
  /\ forall p k, in_use p (lp_calls l) -> deref (lp_d l) p = Ok k -> d_active (lp_d l) = Some p /\ told_so (lp_calls l) k.
Lemma aged_later a b d : (a <= b)%Z -> aged a d -> aged b d.
Proof. intros L H k Hk. destruct (H k Hk) as [A (c & T & B & C)]. split; [exact A|]. exists c, T. split; [exact B|lia]. Qed.
Lemma F2_nth (a b : list kbd) n y : Forall2 mild a b -> nth_error b n = Some y -> exists x, nth_error a n = Some x /\ mild x y.
Proof.
  intros H. revert n. induction H as [|u v a b Huv H IH]; intros [|n] E; try discriminate; cbn [nth_error] in *; [injection E as <-; eauto|eauto].
Qed.
Lemma mildly_deref d d' p k' : mildly d d' -> deref d' p = Ok k' -> exists k, deref d p = Ok k /\ mild k k'.
Proof.
  intros (A & _ & C) H. unfold deref in *. rewrite A in H. destruct (Nat.eqb _ _); [|discriminate]. destruct (nth_error (d_ents d') (snd p)) as [y|] eqn:E; [|discriminate].
  apply Ok_inj in H. subst y. destruct (F2_nth _ _ _ _ C E) as (x & -> & M). eauto.
Qed.
Lemma mildly_aged now d d' : mildly d d' -> aged now d -> aged now d'.
Proof.
  intros (_ & B & C) Ag y Hy. apply In_nth_error in Hy as [n Hy]. destruct (F2_nth _ _ _ _ C Hy) as (x & Hx & M1 & M2 & M3).
  apply nth_error_In in Hx. destruct (Ag x Hx) as [X (c & T & Y & Z)]. split; [lia|]. exists c, T. auto.
Qed.
Lemma load_aged now texts clock : (0 <= now)%Z -> forall acc ents, load_files texts clock acc = Ok ents ->
  (forall k, In k acc -> (k_clock k <= clock)%Z /\ exists c T, timeline c T k /\ (T <= now)%Z) ->
  forall k, In k ents -> (k_clock k <= clock)%Z /\ exists c T, timeline c T k /\ (T <= now)%Z.
Proof.
  intros Hn. induction texts as [|t r IH]; cbn [load_files]; intros acc ents H F; [apply Ok_inj in H; now subst|].
  destruct (config_parse t) as [o| | |] eqn:E; cbn [bind] in H; try discriminate H.
  apply (IH _ _ H). destruct o as [c|]; [|exact F]. intros k [<-|Hk]; [|auto].
  split; [cbn; lia|]. exists c, now. split; [now apply SpecTimer.tl_init|lia].
Qed.
Lemma reload_aged now texts grabs d d' : (0 <= now)%Z -> reload texts grabs d = Ok d' -> aged now d'.
Proof.
  intros Hn H. apply reload_inv in H as (ents & E & ->). destruct (clear_ents (reload_base texts grabs d ents)) as (A & _ & B & _).
  unfold aged. rewrite A, B. cbn. eapply load_aged; [exact Hn|exact E|intros ? []].
Qed.
Lemma reload_client wr con m texts grabs d d' now : (0 <= now)%Z -> i_type m = IReload -> handle_client wr con m texts grabs d = Ok d' -> aged now d -> aged now d'.
Proof.
  intros Hn Hm H Ag. unfold handle_client in H. rewrite Hm in H.
  destruct (4096 <=? _); [apply Ok_inj in H; subst; exact Ag|]. destruct (1000000 <? _); [apply Ok_inj in H; subst; exact Ag|].
  destruct (reload _ _ _) as [d1| | |] eqn:E; cbn [bind] in H; try discriminate H. apply Ok_inj in H. subst. exact (reload_aged now _ _ _ _ Hn E).
Qed.
Lemma quiet_inv l now ts ev d' t : Inv l now -> (now <= ts)%Z -> runs_engine (lp_d l) ev = false ->
  (~ reloads ev -> mildly (lp_d l) d' /\ d_active d' = match owner (lp_d l) ev with Some q => Some q | None => d_active (lp_d l) end) ->
  (reloads ev -> aged ts d') ->
  Inv (mkL d' t (lp_de l) (lp_panic l) (lp_dead l) (lp_reads l) ((lp_d l, ev, ts, t) :: lp_calls l)) ts.
Proof.
  intros (N & Ag & C) L Hr Q R. split; [lia|]. cbn [lp_d lp_calls]. split.
  - destruct ev as [|i de|i g|i|con m x g]; try (destruct (Q (fun f => f)) as [M _]; apply (mildly_aged _ _ _ M), (aged_later now); assumption).
    destruct (i_type m) eqn:Em; try (apply R; exact Em); (destruct (Q ltac:(cbn; congruence)) as [M _]; apply (mildly_aged _ _ _ M), (aged_later now); assumption).
  - intros p k Hu Hk. cbn [in_use] in Hu. rewrite Hr in Hu. destruct Hu as (U1 & U2 & U3). destruct (Q U2) as [M A].
    destruct (mildly_deref _ _ _ _ M Hk) as (k0 & Hk0 & X1 & X2 & X3). destruct (C p k0 U3 Hk0) as [C1 (c & T & C2 & C3 & C4)]. split.
    + rewrite A. destruct (owner (lp_d l) ev) as [q|]; [|exact C1]. now rewrite (U1 q eq_refl).
    + exists c, T. cbn [latest deadline]. rewrite Hr. split; [exact C2|]. split; [auto|]. intros x Hx. rewrite X1 in Hx. auto.
Qed.
Lemma engine_inv l now ts ev p d d' t : Inv l now -> (now <= ts)%Z -> runs_engine (lp_d l) ev = true -> whose (lp_d l) ev = Some p ->
  d_active d' = Some p -> served ts p t d d' ->
  Inv (mkL d' t (lp_de l) (lp_panic l) (lp_dead l) (lp_reads l) ((lp_d l, ev, ts, t) :: lp_calls l)) ts.
Proof.
  intros (N & Ag & C) L Hr Hw Ha (S1 & S2 & S3 & (c & k & S4 & S5)). split; [lia|]. cbn [lp_d lp_calls]. split; [exact S1|].
  intros q k' Hu Hk. cbn [in_use] in Hu. rewrite Hr, Hw in Hu. injection Hu as <-. split; [exact Ha|]. rewrite S4 in Hk. apply Ok_inj in Hk. subst k'.
  apply PropTimer.told_timeline in S5 as (T1 & T2 & T3). exists c, ts. cbn [latest deadline]. rewrite Hr. split; [reflexivity|]. split; [exact T1|].
  intros x Hx. destruct T3 as [[T3 _]|(y & Hy & -> & Hm)]; [rewrite T3 in Hx; destruct Hx|].
  exists y. apply T2 in Hy. replace (0 <? y - ts)%Z with true by lia. split; [f_equal; lia|now apply Hm].
Qed.
Lemma served_times ts a b p t d d' : served ts p t d d' -> served ts p t d (set_d_times a b d').
Proof. intros H. exact H. Qed.
Lemma call_inv_served fuel wr ev ts l now l' : Inv l now -> (now <= ts)%Z -> call fuel wr ev ts l = Ok l' -> Inv l' ts.
Proof.
  intros HI L H. unfold call in H. destruct (event_handler _ _ _ _ _) as [[d t]| | |] eqn:E; cbn [bind] in H; try discriminate H.
  apply Ok_inj in H. subst l'. pose proof HI as (N & Ag & C). unfold event_handler in E.
  set (t0 := Z.max 0 (d_timeout (lp_d l) - (ts - d_last (lp_d l)))) in *. set (d0 := set_d_times ts t0 (lp_d l)) in *.
  assert (Ag0 : aged ts d0) by exact (aged_later now ts _ L Ag).
  assert (M0 : mildly (lp_d l) d0) by now apply mildly_same.
  destruct ev as [|i de|i grab|i|con m texts grabs].
  - destruct (d_active d0) as [p|] eqn:Ea.
    + destruct (run_kbd _ _ _ _ _) as [[d1 t1]| | |] eqn:E1; cbn [bind] in E; try discriminate E. apply Ok_inj, pair_equal_spec in E as [<- <-].
      apply run_served in E1; [|exact Ag0]. cbn [ev_time] in E1. eapply (engine_inv l now ts EvTimeout p d0); auto.
      * cbn [runs_engine]. change (d_active (lp_d l)) with (d_active d0). now rewrite Ea.
      * destruct E1 as (_ & _ & X & _). cbn. congruence.
    + apply Ok_inj, pair_equal_spec in E as [<- <-]. apply (quiet_inv l now); auto.
      * cbn [runs_engine]. change (d_active (lp_d l)) with (d_active d0). now rewrite Ea.
  - destruct (device_event _ _ _ _ _ _) as [[d1 r]| | |] eqn:E1; cbn [bind] in E; try discriminate E. apply Ok_inj, pair_equal_spec in E as [<- <-].
    destruct (runs_engine d0 (EvDev i de)) eqn:Er.
    + destruct (device_served _ _ _ _ _ _ _ _ Er E1 Ag0) as (p & t & -> & W & A & Sv).
      eapply (engine_inv l now ts (EvDev i de) p (set_d_active (Some p) d0)); auto.
    + destruct (device_quiet _ _ _ _ _ _ _ _ Er E1) as [M A]. apply (quiet_inv l now); auto. intros [].
  - destruct (nth_error (d_devs d0) i) as [dv|]; [|discriminate E]. cbn [bind] in E. apply Ok_inj, pair_equal_spec in E as [<- <-].
    apply (quiet_inv l now); auto.
  - cbn [bind] in E. apply Ok_inj, pair_equal_spec in E as [<- <-]. apply (quiet_inv l now); auto.
  - destruct (handle_client _ _ _ _ _ _) as [d1| | |] eqn:E1; cbn [bind] in E; try discriminate E. apply Ok_inj, pair_equal_spec in E as [<- <-].
    apply (quiet_inv l now); auto.
    + intros Hn. destruct (client_steady _ _ _ _ _ _ _ Hn E1) as [M A]. split; [|exact A].
      eapply mildly_trans; [exact M0|]. eapply mildly_trans; [exact M|]. now apply mildly_same.
    + intros Hm. cbn [reloads] in Hm. exact (reload_client _ _ _ _ _ _ _ ts ltac:(lia) Hm E1 Ag0).
Qed.

(* ---- over the rounds of the loop ------------------------------------------------------------ *)
Section Lift.
  Variables (fuel : nat) (wr : nat -> bool).
  Lemma inv_ext l l' now : d_ents (lp_d l') = d_ents (lp_d l) -> d_gen (lp_d l') = d_gen (lp_d l) -> d_clock (lp_d l') = d_clock (lp_d l) ->
    d_active (lp_d l') = d_active (lp_d l) -> lp_calls l' = lp_calls l -> Inv l now -> Inv l' now.
  Proof. intros A B C D E. unfold Inv, aged, deref. now rewrite A, B, C, D, E. Qed.
  Lemma inv_later l a b : (a <= b)%Z -> Inv l a -> Inv l b.
  Proof. intros L (A & B & C). split; [lia|]. split; [exact (aged_later a b _ L B)|exact C]. Qed.
  Lemma inv_call ev now l l' : call fuel wr ev now l = Ok l' -> Inv l now -> Inv l' now.
  Proof. intros H HI. eapply call_inv_served; [exact HI|lia|exact H]. Qed.
  Lemma inv_calls evs : forall now l l', calls fuel wr evs now l = Ok l' -> Inv l now -> Inv l' now.
  Proof.
    induction evs as [|e r IH]; cbn [calls]; intros now l l' H HI; [apply Ok_inj in H; now subst|].
    destruct (call _ _ _ _ _) as [l1| | |] eqn:E; cbn [bind] in H; try discriminate H. eapply IH; [exact H|]. eapply inv_call; eauto.
  Qed.
  Lemma inv_add devs : forall now l l', add_devices fuel wr devs now l = Ok l' -> Inv l now -> Inv l' now.
  Proof.
    induction devs as [|[dv g] r IH]; cbn [add_devices]; intros now l l' H HI; [apply Ok_inj in H; now subst|].
    destruct (Nat.ltb _ 64); [|discriminate H].
    destruct (call _ _ _ _ _) as [l1| | |] eqn:E; cbn [bind] in H; try discriminate H. eapply IH; [exact H|]. eapply inv_call; [exact E|].
    eapply inv_ext; [..|exact HI]; reflexivity.
  Qed.
  Lemma inv_read i rs : forall now l l', read_device fuel wr i rs now l = Ok l' -> Inv l now -> Inv l' now.
  Proof.
    induction rs as [|r rs IH]; cbn [read_device]; intros now l l' H HI; [apply Ok_inj in H; now subst|].
    destruct (nth_error (d_devs (lp_d l)) i) as [dv|] eqn:En; [|discriminate H].
    destruct (device_read_event _ _ _) as [[de ret]| | |]; cbn [bind] in H; try discriminate H.
    destruct ret; cbn [negb] in H.
    2:{ apply Ok_inj in H. subst. eapply inv_ext; [..|exact HI]; reflexivity. }
    destruct (de_type de).
    6:{ destruct (call _ _ _ _ _) as [l2| | |] eqn:E; cbn [bind] in H; try discriminate H.
        apply Ok_inj in H. subst. eapply inv_ext; [..|eapply inv_call; [exact E|eapply inv_ext; [..|exact HI]]]; reflexivity. }
    all: destruct (panic_check _ _ _) as [s die]; destruct die;
      [apply Ok_inj in H; subst; eapply inv_ext; [..|exact HI]; reflexivity|];
      destruct (call _ _ _ _ _) as [l2| | |] eqn:E; cbn [bind] in H; try discriminate H;
      (eapply IH; [exact H|]; eapply inv_call; [exact E|eapply inv_ext; [..|exact HI]]; reflexivity).
  Qed.
  Lemma inv_reads reads is : forall now l l', read_devices fuel wr reads is now l = Ok l' -> Inv l now -> Inv l' now.
  Proof.
    induction is as [|i r IH]; cbn [read_devices]; intros now l l' H HI; [apply Ok_inj in H; now subst|].
    destruct (lp_dead l); [apply Ok_inj in H; now subst|].
    destruct (read_device _ _ _ _ _ _) as [l1| | |] eqn:E; cbn [bind] in H; try discriminate H. eapply IH; [exact H|]. eapply inv_read; eauto.
  Qed.
  Lemma round_inv r l l' : loop_round fuel wr r l = Ok l' -> (r_start r <= r_stop r)%Z -> Inv l (r_start r) -> Inv l' (r_stop r).
  Proof.
    intros H Hm HI. apply (inv_later _ _ _ Hm) in HI. apply round_cases in H as [[-> Hd']|(_ & l1 & l2 & E1 & E2 & H)]; [exact HI|].
    assert (I1 : Inv l1 (r_stop r)).
    { destruct (_ && _)%bool; [eapply inv_call; eauto|]. apply Ok_inj in E1. subst l1. eapply inv_ext; [..|exact HI]; reflexivity. }
    apply (inv_reads _ _ _ _ _ E2) in I1. destruct H as [[_ ->]|(_ & l3 & l4 & E3 & E4 & ->)]; [exact I1|].
    apply (inv_calls _ _ _ _ E3) in I1. apply (inv_add _ _ _ _ E4) in I1. eapply inv_ext; [..|exact I1]; reflexivity.
  Qed.
  Lemma prompt_inv l now : prompt fuel wr l now -> Inv l now.
  Proof.
    induction 1 as [texts devs grabs ts l Hts H|r l l' now Hp IH Hs Hm H].
    - unfold Daemon.start in H. destruct (reload _ _ _) as [d| | |] eqn:Er; cbn [bind] in H; try discriminate H.
      destruct (calls _ _ _ _ _) as [l1| | |] eqn:E; cbn [bind] in H; try discriminate H. apply Ok_inj in H. subst.
      assert (I1 : Inv l1 ts). { apply (inv_calls _ _ _ _ E). split; [lia|]. split; [exact (reload_aged ts _ _ _ _ ltac:(lia) Er)|intros p k []]. }
      eapply inv_ext; [..|exact I1]; reflexivity.
    - subst now. eapply round_inv; eauto.
  Qed.
End Lift.
