(* The daemon as a system of machines with keys decided later and chords (C78). *)
From Verif Require Import Base Lib Types Keys MacroExec Kbd Str MacroParse Config Match Outside SpecMods SpecLookup SpecDefer Steps Hist Device Daemon SpecDaemon DaemonProofs EntryProofs ListenProofs TimelyProofs BoundProofs PropDaemon
  SpecRef RefProofs RefSteps RefRun SpecWait WaitProofs SpecFull FullProofs SpecSystem SystemProofs SpecEntire.
Local Open Scope list_scope.
Local Open Scope nat_scope.
Local Notation length := List.length.

Section Sys.
Variable cs : list config.
Lemma obeys_length evs s : obeys cs evs s -> length (y_ms s) = length cs.
Proof. induction 1; cbn [y_ms]; [apply map_length|now rewrite upd_length]. Qed.
Lemma ample_prefix a b : ample cs (a ++ b) -> ample cs a.
Proof. intros B evs' j e rest s c x l E. apply (B evs' j e (rest ++ b)). now rewrite <- E, <- app_assoc. Qed.
(* no oneshot keys *)
Lemma unshot_act c l : shot_free c -> forall x, unshot x -> unshot (fold_left (act_all c) l x).
Proof.
  intros [Nc Nk]. induction l as [|i l IH]; intros x S0; [exact S0|]. cbn [fold_left]. apply IH. unfold act_all.
  destruct i as [e| |t]; destruct (g_todo x) as [|[e0|e0|] r]; try exact S0; try (apply (unshot_feed c Nc Nk); exact S0).
  - exact (unshot_try Calm x S0 Logic.I).
  - destruct (_ <=? _)%Z; [now apply (unshot_feed c Nc Nk)|exact S0].
Qed.
Lemma obeys_unshot evs s : (forall c, In c cs -> shot_free c) -> obeys cs evs s -> forall j c x, nth_error cs j = Some c -> nth_error (y_ms s) j = Some x -> unshot x.
Proof.
  intros Nc H. induction H as [|evs s i c0 x0 e l H IH Hc Hx Gl Tl]; intros j c x Hj Hz; cbn [y_ms] in Hz.
  - rewrite nth_error_map, Hj in Hz. injection Hz as <-. destruct (Nc c (nth_error_In _ _ Hj)) as [N1 N2]. exact (unshot_turns c N1 N2 []).
  - rewrite nth_upd_error in Hz. destruct (Nat.eqb_spec i j) as [Ei|Hn]; cbn [andb] in Hz; [|now apply (IH j c)].
    subst i. destruct (Nat.ltb _ _); [|now apply (IH j c)]. injection Hz as <-. apply unshot_act; [apply Nc; now apply nth_error_In in Hc|now apply (IH j c0)].
Qed.
Lemma unshot_ample evs : (forall c, In c cs -> shot_free c) -> ample cs evs.
Proof.
  intros Nc evs' j e rest s c x l _ H Hc Hx _. pose proof (obeys_unshot _ _ Nc H j c x Hc Hx) as S0.
  assert (Nj : shot_free c) by (apply Nc; now apply nth_error_In in Hc). split; [destruct S0 as [[-> _] _]; cbn; lia|].
  destruct (unshot_act c (Given e :: l) Nj x S0) as [[S1 _] _]. unfold attends_all. rewrite S1. cbn. lia.
Qed.
Hypothesis Gn : forall j c, nth_error cs j = Some c -> entire c.
Variable before : list vev.

Record ctied (a : option nat) (evs : list (nat * kev)) (d : dstate) : Prop := CTied {
  v_sys : exists s, obeys cs evs s /\ length (d_ents d) = length cs /\ paper d = y_out s ++ before
    /\ forall j c, nth_error cs j = Some c -> exists k x, nth_error (d_ents d) j = Some k /\ nth_error (y_ms s) j = Some x
         /\ (k_clock k <= d_clock d)%Z /\ k_orig k = c /\ V c x k /\ g_todo x = [];
  v_use : a = match d_active d with Some (g, j) => if Nat.eqb g (d_gen d) then Some j else None | None => None end
}.
Lemma ctied_same a evs d d' : d_ents d' = d_ents d -> d_clock d' = d_clock d -> paper d' = paper d -> d_active d' = d_active d -> d_gen d' = d_gen d ->
  ctied a evs d -> ctied a evs d'.
Proof. intros E1 E2 E3 E4 E5 []. constructor; rewrite ?E1, ?E2, ?E3, ?E4, ?E5; assumption. Qed.
Lemma V_log c x k : V c x k -> k_out k = o_log (m_host (g_m x)).
Proof. intros (p & H & _). now rewrite (proj1 H). Qed.
Lemma crun_tied fuel wr p e a evs d d' t : run_kbd fuel wr p e d = Ok (d', t) -> ctied a evs d -> ample cs (evs ++ [(snd p, e)]) ->
  ctied a (evs ++ [(snd p, e)]) d'.
Proof.
  intros H T Bd. apply run_inv in H as (k & k1 & d1 & E1 & E2 & E3 & ->). pose proof (deliver_paper _ _ _ _ _ _ E3) as Pa. apply deliver_ents in E3 as (A1 & A2 & A3 & A4 & A5).
  cbn [d_ents d_gen d_clock d_devs d_active set_d_clock] in A1, A2, A3, A4, A5. rewrite rev_involutive in Pa. destruct T as [(s & T1 & T2 & T3 & T4) T5].
  destruct p as [g j]. cbn [snd] in *. unfold deref in E1. cbn [fst snd] in E1. destruct (Nat.eqb g (d_gen d)); [|discriminate E1].
  destruct (nth_error (d_ents d) j) as [k0|] eqn:Ek; [|discriminate E1]. apply Ok_inj in E1. subst k0.
  assert (Lj : j < length (d_ents d)) by (apply nth_error_Some; rewrite Ek; discriminate).
  destruct (nth_error cs j) as [c|] eqn:Ec; [|apply nth_error_None in Ec; lia].
  destruct (T4 j c Ec) as (k0 & x & Ek0 & Ex & Ck & Co & Wx & Td). rewrite Ek in Ek0. injection Ek0 as <-.
  assert (Kc : (d_clock d <= k_clock k1)%Z).
  { apply kbd_process_events_steps in E2. apply steps_clock in E2. exact E2. }
  assert (Co1 : k_orig k1 = c) by (apply events_orig in E2 as [_ E2]; cbn [k_orig set_k_clock] in E2; congruence).
  apply one_call in E2 as [f E2].
  assert (Bd3 : forall l, given l = [] -> length (m_shots (g_m x)) < 200 /\ length (m_shots (g_m (attends_all c x e l))) < 200).
  { intros l Gl. exact (Bd evs j e [] s c x l eq_refl T1 Ec Ex Gl). }
  assert (Ea : forall l, attends_all c x e l = fold_left (act_all c) l (feed_all c e x)) by (intros l; unfold attends_all; cbn [fold_left]; unfold act_all at 2; now rewrite Td).
  assert (Wk : V c x (set_k_clock (d_clock d) k)) by (eapply outside_V; [exact Wx|now apply out_clock]).
  destruct (every_event c (Gn j c Ec) f x (set_k_clock (d_clock d) k) e k1 t Wk (proj1 (Bd3 [] eq_refl))) as (l & Gl & W1 & Tl).
  { intros l Gl. rewrite <- Ea. now apply Bd3. }
  { exact E2. }
  rewrite <- Ea in W1, Tl. rewrite Td in Tl.
  constructor; cbn [store d_ents d_clock d_active d_gen set_d_ents]; [|now rewrite A5, A2].
  eexists. split; [exact (ob_event cs evs s j c x e l T1 Ec Ex Gl Tl)|]. cbn [y_ms y_out]. split; [now rewrite upd_length, A1|]. split.
  - change (paper (store (g, j) k1 d1)) with (paper d1). rewrite Pa. change (paper (set_d_clock (k_clock k1) d)) with (paper d). rewrite T3, app_assoc. f_equal.
    rewrite (V_log _ _ _ Wx), (V_log _ _ _ W1). reflexivity.
  - pose proof (obeys_length _ _ T1) as Lz. intros i ci Hi. cbn [snd]. rewrite A1, A3, !nth_upd_error, Lz, <- T2. destruct (Nat.eqb_spec j i) as [Ei|Hn].
    + subst i. apply Nat.ltb_lt in Lj. rewrite Lj. cbn [andb]. exists k1, (attends_all c x e l). rewrite Ec in Hi. injection Hi as <-.
      split; [reflexivity|]. split; [reflexivity|]. split; [lia|]. auto.
    + cbn [andb]. destruct (T4 i ci Hi) as (ki & xi & X1 & X2 & X3 & X4). exists ki, xi. split; [exact X1|]. split; [exact X2|]. split; [lia|exact X4].
Qed.
Lemma cstore_tied p k s a evs d : deref d p = Ok k -> s_sens s = s_sens (k_scroll k) -> s_active s = s_active (k_scroll k) ->
  ctied a evs d -> ctied a evs (store p (set_k_scroll s k) d).
Proof.
  intros E S1 S2 [(s0 & T1 & T2 & T3 & T4) T5]. constructor; cbn [store d_ents d_clock d_active d_gen set_d_ents]; [|exact T5].
  exists s0. split; [exact T1|]. split; [now rewrite upd_length|]. split; [exact T3|].
  intros i ci Hi. destruct (T4 i ci Hi) as (ki & xi & X1 & X2 & X3 & X4 & X5 & X6). rewrite nth_upd_error. destruct (Nat.eqb_spec (snd p) i) as [Ei|Hn].
  - subst i. unfold deref in E. destruct (Nat.eqb _ _); [|discriminate E]. rewrite X1 in E. apply Ok_inj in E. subst ki.
    assert (L : snd p < length (d_ents d)) by (apply nth_error_Some; rewrite X1; discriminate). apply Nat.ltb_lt in L. rewrite L. cbn [andb].
    exists (set_k_scroll s k), xi. split; [reflexivity|]. split; [exact X2|]. split; [exact X3|]. split; [exact X4|]. split; [|exact X6].
    eapply outside_V; [exact X5|]. destruct s as [x y n b]. cbn [s_sens s_active] in *. subst n b. apply out_motion.
  - cbn [andb]. exists ki, xi. auto 8.
Qed.
Lemma cactive_tied a evs d (p : kptr) : ctied a evs d -> fst p = d_gen d -> ctied (Some (snd p)) evs (set_d_active (Some p) d).
Proof.
  intros [T1 T4] G. constructor; try assumption. cbn [set_d_active d_active d_gen]. destruct p as [g j]. cbn [fst snd] in *. subst g. now rewrite Nat.eqb_refl.
Qed.
Lemma linked_csystem fuel wr d0 cl d :
  linked fuel wr d0 cl d -> (forall d ev ts t, In (d, ev, ts, t) cl -> ptr_ok d /\ undisturbed ev) ->
  ctied None [] d0 -> ample cs (requests None (map fst (rev cl))) ->
  ctied (fold_left (fun a (x : dstate * event * Z) => in_use a (fst (fst x)) (snd (fst x))) (map fst (rev cl)) None) (requests None (map fst (rev cl))) d.
Proof.
  apply (linked_tied ctied (ample cs)).
  - apply ample_prefix.
  - apply ctied_same.
  - intros. eapply crun_tied; eauto.
  - intros. eapply cstore_tied; eauto.
  - apply cactive_tied.
  - intros a evs d1 T. apply (v_use _ _ _ T).
Qed.
(* where it begins *)
Variable clk : Z.
Hypothesis Dn : forall j c, nth_error cs j = Some c -> (dawn c <= clk)%Z.
Lemma ctied_begin d : tied cs clk before None [] d -> (forall j k, nth_error (d_ents d) j = Some k -> exists c, k = new_keyboard c clk) -> ctied None [] d.
Proof.
  intros [T1 T2 T3 T4] F. constructor; [|exact T4]. exists (CSystem (map start_all cs) []). split; [apply ob_begin|]. split; [exact T1|]. split; [exact T3|].
  intros j c Hj. destruct (T2 j c Hj) as (k & X1 & X2 & X3 & _). destruct (F j k X1) as [c' Ek]. exists k, (start_all c). split; [exact X1|]. cbn [y_ms]. split; [now rewrite nth_error_map, Hj|].
  split; [exact X2|]. split; [exact X3|]. split; [|reflexivity]. subst k. change (k_orig (new_keyboard c' clk)) with c' in X3. subst c'.
  apply start_V. now apply (Dn j).
Qed.
End Sys.
