(* The daemon as a system of machines with keys decided later (C76). *)
From Verif Require Import Base Lib Types Keys MacroExec Kbd Str MacroParse Config Match Outside SpecMods SpecLookup SpecDefer Steps Hist Device Daemon SpecDaemon DaemonProofs EntryProofs ListenProofs TimelyProofs BoundProofs PropDaemon
  SpecRef RefProofs RefSteps RefRun SpecWait WaitProofs SpecSystem SystemProofs SpecWhole.
Local Open Scope list_scope.
Local Open Scope nat_scope.
Local Notation length := List.length.

Section Sys.
Variable cs : list config.
Lemma hears_length evs s : hears cs evs s -> length (z_ms s) = length cs.
Proof. induction 1; cbn [z_ms]; [apply map_length|now rewrite upd_length]. Qed.
Lemma roomy_prefix a b : roomy cs (a ++ b) -> roomy cs a.
Proof.
  intros [A B]. split; [intros x Hx; apply A, in_or_app; now left|]. intros evs' j e rest s c x l E. apply (B evs' j e (rest ++ b)). now rewrite <- E, <- app_assoc.
Qed.
(* no oneshot keys *)
Definition sober (c : config) (x : whole) : Prop :=
  shotless (x_m x) /\ (forall w, x_wait x = Some w -> ~ oneshot_action (w_tap w) /\ ~ oneshot_action (w_hold w)).
Lemma sober_act c l : no_oneshots c -> forall x, sober c x -> sober c (fold_left (act c) l x).
Proof.
  intros Nc. induction l as [|i l IH]; intros x S0; [exact S0|]. cbn [fold_left]. apply IH. unfold act. destruct S0 as [I1 I2].
  destruct i as [e| |t]; destruct (x_todo x) as [|e0 r]; try (split; assumption); try (apply shotless_feed; assumption).
  destruct (_ <=? _)%Z; [apply shotless_feed; assumption|split; assumption].
Qed.
Lemma hears_sober evs s : (forall c, In c cs -> no_oneshots c) -> hears cs evs s -> forall j c x, nth_error cs j = Some c -> nth_error (z_ms s) j = Some x -> sober c x.
Proof.
  intros Nc H. induction H as [|evs s i c0 x0 e l H IH Hc Hx Gl Tl]; intros j c x Hj Hz; cbn [z_ms] in Hz.
  - rewrite nth_error_map, Hj in Hz. injection Hz as <-. split; [split; [reflexivity|intros h []]|discriminate].
  - rewrite nth_upd_error in Hz. destruct (Nat.eqb_spec i j) as [Ei|Hn]; cbn [andb] in Hz; [|now apply (IH j)].
    subst i. destruct (Nat.ltb _ _); [|now apply (IH j)]. injection Hz as <-. rewrite Hc in Hj. injection Hj as <-.
    apply sober_act; [apply Nc; now apply nth_error_In in Hc|now apply (IH j)].
Qed.
Lemma sober_roomy evs : (forall c, In c cs -> no_oneshots c) -> (forall x, In x evs -> physical (ev_code (snd x)) \/ ev_code (snd x) = 0%N) -> roomy cs evs.
Proof.
  intros Nc Ph. split; [exact Ph|]. intros evs' j e rest s c x l _ H Hc Hx _. pose proof (hears_sober _ _ Nc H j c x Hc Hx) as S0.
  assert (Nj : no_oneshots c) by (apply Nc; now apply nth_error_In in Hc). split; [destruct S0 as [[-> _] _]; cbn; lia|].
  destruct (sober_act c (Given e :: l) Nj x S0) as [[S1 _] _]. unfold attends. rewrite S1. cbn. lia.
Qed.
Hypothesis Gn : forall j c, nth_error cs j = Some c -> general c.
Variable before : list vev.

Record wtied (a : option nat) (evs : list (nat * kev)) (d : dstate) : Prop := WTied {
  u_sys : exists s, hears cs evs s /\ length (d_ents d) = length cs /\ paper d = z_out s ++ before
    /\ forall j c, nth_error cs j = Some c -> exists k x, nth_error (d_ents d) j = Some k /\ nth_error (z_ms s) j = Some x
         /\ (k_clock k <= d_clock d)%Z /\ k_orig k = c /\ W c x k /\ x_todo x = [];
  u_use : a = match d_active d with Some (g, j) => if Nat.eqb g (d_gen d) then Some j else None | None => None end
}.
Lemma wtied_same a evs d d' : d_ents d' = d_ents d -> d_clock d' = d_clock d -> paper d' = paper d -> d_active d' = d_active d -> d_gen d' = d_gen d ->
  wtied a evs d -> wtied a evs d'.
Proof. intros E1 E2 E3 E4 E5 []. constructor; rewrite ?E1, ?E2, ?E3, ?E4, ?E5; assumption. Qed.
Lemma W_log c x k : W c x k -> k_out k = o_log (m_host (x_m x)).
Proof. intros [(pe & H & _) _]. now rewrite (proj1 H). Qed.
Lemma wrun_tied fuel wr p e a evs d d' t : run_kbd fuel wr p e d = Ok (d', t) -> wtied a evs d -> roomy cs (evs ++ [(snd p, e)]) ->
  wtied a (evs ++ [(snd p, e)]) d'.
Proof.
  intros H T Bd. apply run_inv in H as (k & k1 & d1 & E1 & E2 & E3 & ->). pose proof (deliver_paper _ _ _ _ _ _ E3) as Pa. apply deliver_ents in E3 as (A1 & A2 & A3 & A4 & A5).
  cbn [d_ents d_gen d_clock d_devs d_active set_d_clock] in A1, A2, A3, A4, A5. rewrite rev_involutive in Pa. destruct T as [(s & T1 & T2 & T3 & T4) T5].
  destruct p as [g j]. cbn [snd] in *. unfold deref in E1. cbn [fst snd] in E1. destruct (Nat.eqb g (d_gen d)); [|discriminate E1].
  destruct (nth_error (d_ents d) j) as [k0|] eqn:Ek; [|discriminate E1]. apply Ok_inj in E1. subst k0.
  assert (Lj : j < length (d_ents d)) by (apply nth_error_Some; rewrite Ek; discriminate).
  destruct (nth_error cs j) as [c|] eqn:Ec; [|apply nth_error_None in Ec; lia].
  destruct (T4 j c Ec) as (k0 & x & Ek0 & Ex & Ck & Co & Wx & Td). rewrite Ek in Ek0. injection Ek0 as <-.
  assert (Kc : (d_clock d <= k_clock k1)%Z).
  { apply kbd_process_events_steps in E2. apply steps_clock in E2. exact E2. }
  assert (Co1 : k_orig k1 = c) by (apply events_orig in E2 as [_ E2]; cbn [k_orig set_k_clock] in E2; congruence).
  apply one_call in E2 as [f E2]. destruct Bd as [Bd1 Bd2].
  assert (Te : touches e) by (apply (Bd1 (j, e)); apply in_or_app; right; now left).
  assert (Bd3 : forall l, given l = [] -> length (m_shots (x_m x)) < 200 /\ length (m_shots (x_m (attends c x e l))) < 200).
  { intros l Gl. exact (Bd2 evs j e [] s c x l eq_refl T1 Ec Ex Gl). }
  assert (Ea : forall l, attends c x e l = fold_left (act c) l (feed c e x)) by (intros l; unfold attends; cbn [fold_left act]; now rewrite Td).
  assert (Wk : W c x (set_k_clock (d_clock d) k)) by (eapply outside_W; [exact Wx|now apply out_clock]).
  destruct (all_events c (Gn j c Ec) f x (set_k_clock (d_clock d) k) e k1 t Wk Te (proj1 (Bd3 [] eq_refl))) as (l & Gl & W1 & Tl).
  { intros l Gl. rewrite <- Ea. now apply Bd3. }
  { exact E2. }
  rewrite <- Ea in W1, Tl. rewrite Td in Tl.
  constructor; cbn [store d_ents d_clock d_active d_gen set_d_ents]; [|now rewrite A5, A2].
  eexists. split; [exact (hs_event cs evs s j c x e l T1 Ec Ex Gl Tl)|]. cbn [z_ms z_out]. split; [now rewrite upd_length, A1|]. split.
  - change (paper (store (g, j) k1 d1)) with (paper d1). rewrite Pa. change (paper (set_d_clock (k_clock k1) d)) with (paper d). rewrite T3, app_assoc. f_equal.
    rewrite (W_log _ _ _ Wx), (W_log _ _ _ W1). reflexivity.
  - pose proof (hears_length _ _ T1) as Lz. intros i ci Hi. cbn [snd]. rewrite A1, A3, !nth_upd_error, Lz, <- T2. destruct (Nat.eqb_spec j i) as [Ei|Hn].
    + subst i. apply Nat.ltb_lt in Lj. rewrite Lj. cbn [andb]. exists k1, (attends c x e l). rewrite Ec in Hi. injection Hi as <-.
      split; [reflexivity|]. split; [reflexivity|]. split; [lia|]. auto.
    + cbn [andb]. destruct (T4 i ci Hi) as (ki & xi & X1 & X2 & X3 & X4). exists ki, xi. split; [exact X1|]. split; [exact X2|]. split; [lia|exact X4].
Qed.
Lemma wstore_tied p k s a evs d : deref d p = Ok k -> s_sens s = s_sens (k_scroll k) -> s_active s = s_active (k_scroll k) ->
  wtied a evs d -> wtied a evs (store p (set_k_scroll s k) d).
Proof.
  intros E S1 S2 [(s0 & T1 & T2 & T3 & T4) T5]. constructor; cbn [store d_ents d_clock d_active d_gen set_d_ents]; [|exact T5].
  exists s0. split; [exact T1|]. split; [now rewrite upd_length|]. split; [exact T3|].
  intros i ci Hi. destruct (T4 i ci Hi) as (ki & xi & X1 & X2 & X3 & X4 & X5 & X6). rewrite nth_upd_error. destruct (Nat.eqb_spec (snd p) i) as [Ei|Hn].
  - subst i. unfold deref in E. destruct (Nat.eqb _ _); [|discriminate E]. rewrite X1 in E. apply Ok_inj in E. subst ki.
    assert (L : snd p < length (d_ents d)) by (apply nth_error_Some; rewrite X1; discriminate). apply Nat.ltb_lt in L. rewrite L. cbn [andb].
    exists (set_k_scroll s k), xi. split; [reflexivity|]. split; [exact X2|]. split; [exact X3|]. split; [exact X4|]. split; [|exact X6].
    eapply outside_W; [exact X5|]. destruct s as [x y n b]. cbn [s_sens s_active] in *. subst n b. apply out_motion.
  - cbn [andb]. exists ki, xi. auto 8.
Qed.
Lemma wactive_tied a evs d (p : kptr) : wtied a evs d -> fst p = d_gen d -> wtied (Some (snd p)) evs (set_d_active (Some p) d).
Proof.
  intros [T1 T4] G. constructor; try assumption. cbn [set_d_active d_active d_gen]. destruct p as [g j]. cbn [fst snd] in *. subst g. now rewrite Nat.eqb_refl.
Qed.
Lemma linked_wsystem fuel wr d0 cl d :
  linked fuel wr d0 cl d -> (forall d ev ts t, In (d, ev, ts, t) cl -> ptr_ok d /\ undisturbed ev) ->
  wtied None [] d0 -> roomy cs (requests None (map fst (rev cl))) ->
  wtied (fold_left (fun a (x : dstate * event * Z) => in_use a (fst (fst x)) (snd (fst x))) (map fst (rev cl)) None) (requests None (map fst (rev cl))) d.
Proof.
  apply (linked_tied wtied (roomy cs)).
  - apply roomy_prefix.
  - apply wtied_same.
  - intros. eapply wrun_tied; eauto.
  - intros. eapply wstore_tied; eauto.
  - apply wactive_tied.
  - intros a evs d1 T. apply (u_use _ _ _ T).
Qed.
(* where it begins *)
Variable clk : Z.
Hypothesis Dn : forall j c, nth_error cs j = Some c -> (dawn c <= clk)%Z.
Lemma wtied_begin d : tied cs clk before None [] d -> (forall j k, nth_error (d_ents d) j = Some k -> exists c, k = new_keyboard c clk) -> wtied None [] d.
Proof.
  intros [T1 T2 T3 T4] F. constructor; [|exact T4]. exists (WSystem (map start cs) []). split; [apply hs_begin|]. split; [exact T1|]. split; [exact T3|].
  intros j c Hj. destruct (T2 j c Hj) as (k & X1 & X2 & X3 & _). destruct (F j k X1) as [c' Ek]. exists k, (start c). split; [exact X1|]. cbn [z_ms]. split; [now rewrite nth_error_map, Hj|].
  split; [exact X2|]. split; [exact X3|]. split; [|reflexivity]. subst k. change (k_orig (new_keyboard c' clk)) with c' in X3. subst c'.
  split; [|intros x []]. exists (unchorded_fringe (k_pend (new_keyboard c clk))). split; [apply start_sim; now apply (Dn j)|repeat split].
Qed.
End Sys.
