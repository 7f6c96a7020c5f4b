(* The daemon as a system of reference machines (C75). *)
From Verif Require Import Base Lib Types Keys MacroExec Kbd Str MacroParse Config Match Outside SpecMods SpecLookup SpecDefer Steps Hist Device Daemon SpecDaemon DaemonProofs EntryProofs ListenProofs TimelyProofs BoundProofs PropDaemon
  SpecRef RefRun PropRef SpecSystem.
Local Open Scope list_scope.
Local Open Scope nat_scope.
Local Notation length := List.length.

(* ---- what is written ------------------------------------------------------------------- *)
Definition paper (d : dstate) : list vev := filter written (d_out d).
Lemma paper_silent v d : written v = false -> paper (vemit v d) = paper d.
Proof. intros H. unfold paper. cbn [vemit set_d_out d_out filter]. now rewrite H. Qed.
Lemma paper_key code s d : paper (dsend_key code s d) = carried (OKey code s) ++ paper d.
Proof.
  unfold dsend_key, carried, wheel. change K_SCROLL_DOWN with 148%N. change K_SCROLL_UP with 149%N. change K_SCROLL_LEFT with 202%N. change K_SCROLL_RIGHT with 203%N.
  cbv zeta. set (x := (code mod 256)%N). clearbody x.
  destruct (x =? 148)%N; [destruct s; reflexivity|]. destruct (x =? 149)%N; [destruct s; reflexivity|].
  destruct (x =? 203)%N eqn:E3; [rewrite orb_true_r; destruct s; reflexivity|].
  destruct (x =? 202)%N; [destruct s; reflexivity|]. reflexivity.
Qed.
Lemma write_paper wr con text d : paper (fst (write_msg wr con text d)) = paper d.
Proof. reflexivity. Qed.
Lemma notify_paper wr text ls : forall keep d, paper (notify wr text ls keep d) = paper d.
Proof.
  induction ls as [|x ls IH]; cbn [notify]; intros keep d; [reflexivity|].
  pose proof (write_paper wr x text d) as W. destruct (write_msg wr x text d) as [d1 ok]. cbn [fst] in W.
  destruct ok; rewrite IH; [exact W|]. rewrite paper_silent by reflexivity. exact W.
Qed.
Lemma leds_paper p ind devs : forall i d, paper (set_leds p ind devs i d) = paper d.
Proof.
  induction devs as [|dv r IH]; cbn [set_leds]; intros i d; [reflexivity|]. rewrite IH.
  destruct (dv_data dv); [destruct (kptr_eqb _ _); [now rewrite paper_silent|reflexivity]|reflexivity].
Qed.
Lemma layer_paper wr p c i on ind d d' : on_layer_change wr p c i on ind d = Ok d' -> paper d' = paper d.
Proof.
  unfold on_layer_change. intros H.
  assert (K : paper (if c_indicator c then set_leds p ind (d_devs d) 0 d else d) = paper d) by (destruct (c_indicator c); [apply leds_paper|reflexivity]).
  set (d1 := if c_indicator c then set_leds p ind (d_devs d) 0 d else d) in *. clearbody d1.
  destruct (d_lst d1) as [|x l]; [apply Ok_inj in H; now subst|].
  destruct (buf_text _ _); cbn [bind] in H; try discriminate H. apply Ok_inj in H. subst. now rewrite notify_paper.
Qed.
Lemma deliver_paper wr p c os : forall d d', deliver_all wr p c os d = Ok d' -> paper d' = flat_map carried (rev os) ++ paper d.
Proof.
  induction os as [|o r IH]; cbn [deliver_all]; intros d d' H; [apply Ok_inj in H; now subst|].
  destruct (deliver wr p c d o) as [d1| | |] eqn:E; cbn [bind] in H; try discriminate H.
  apply IH in H. rewrite H. cbn [rev]. rewrite flat_map_app, <- app_assoc. f_equal. cbn [flat_map]. rewrite app_nil_r. unfold deliver in E. destruct o.
  - apply Ok_inj in E. subst. apply paper_key.
  - cbn [carried app]. eapply layer_paper; eauto.
  - apply Ok_inj in E. now subst.
  - apply Ok_inj in E. now subst.
Qed.
Lemma send_layers_paper wr con k is : forall d d' ok, send_layers wr con k is d = (d', ok) -> paper d' = paper d.
Proof.
  induction is as [|i r IH]; cbn [send_layers]; intros d d' ok H; [injection H as <- _; reflexivity|].
  destruct (andb _ _); [|eauto]. pose proof (write_paper wr con (43%N :: lname (k_cfg k) i ++ [10%N]) d) as W.
  destruct (write_msg wr con _ d) as [d1 ok1]. cbn [fst] in W. destruct ok1; [rewrite <- W; eauto|injection H as <- _; exact W].
Qed.
Lemma listener_paper wr con d d' : add_listener wr con d = Ok d' -> paper d' = paper d.
Proof.
  unfold add_listener. intros H. destruct (Nat.eqb _ _); [apply Ok_inj in H; now subst|].
  destruct (d_active d) as [p|]; [|apply Ok_inj in H; now subst].
  destruct (deref d p) as [k| | |]; cbn [bind] in H; try discriminate H.
  pose proof (write_paper wr con (47%N :: lname (k_cfg k) (current_layout k) ++ [10%N]) d) as W.
  destruct (write_msg wr con _ d) as [d1 ok1]. cbn [fst] in W.
  destruct (send_layers _ _ _ _ _) as [d2 ok2] eqn:E. apply send_layers_paper in E. apply Ok_inj in H. subst.
  destruct ok2; [|rewrite paper_silent by reflexivity]; rewrite <- W; exact E.
Qed.

Lemma listener_ents wr con d d' : add_listener wr con d = Ok d' -> same_ents d d'.
Proof. apply listener_keeps; intros; try (repeat split; fail). eapply same_ents_trans; eauto. Qed.
(* ---- one event is one call of the engine ------------------------------------------------ *)
Lemma one_call fuel k e k' t : kbd_process_events fuel k [e] = Ok (k', t) ->
  exists f, process_event f k (ev_code e) (ev_pressed e) (ev_time e) = Ok (k', t).
Proof.
  unfold kbd_process_events. intros H. exists fuel. revert H. generalize (process_event fuel). intros pe H. destruct fuel as [|f]; [discriminate H|].
  cbn [pe_loop] in H. change ((0 <? 0)%Z) with false in H. cbn [andb] in H.
  destruct (pe k (ev_code e) (ev_pressed e) (ev_time e)) as [[k1 t1]| | |]; cbn [bind] in H; try discriminate H.
  destruct f; cbn [pe_loop] in H; apply Ok_inj in H; injection H as <- <-; reflexivity.
Qed.

(* ---- the calls of a run follow one another ------------------------------------------------ *)
Section Linked.
Variables (fuel : nat) (wr : nat -> bool).
Inductive linked (d0 : dstate) : list (dstate * event * Z * Z) -> dstate -> Prop :=
| ln_none : linked d0 [] d0
| ln_devs cl d v : linked d0 cl d -> linked d0 cl (set_d_devs v d)
| ln_call cl d ev ts t d' : linked d0 cl d -> event_handler fuel wr ev ts d = Ok (d', t) -> linked d0 ((d, ev, ts, t) :: cl) d'.
Definition linkedl d0 (l : lstate) : Prop := linked d0 (lp_calls l) (lp_d l).
Lemma call_linked d0 ev ts l l' : call fuel wr ev ts l = Ok l' -> linkedl d0 l -> linkedl d0 l'.
Proof.
  unfold call. intros H L. destruct (event_handler _ _ _ _ _) as [[d t]| | |] eqn:E; cbn [bind] in H; try discriminate H. apply Ok_inj in H. subst.
  unfold linkedl. cbn [lp_calls lp_d]. eapply ln_call; eauto.
Qed.
Lemma calls_linked d0 evs : forall ts l l', Daemon.calls fuel wr evs ts l = Ok l' -> linkedl d0 l -> linkedl d0 l'.
Proof.
  induction evs as [|e r IH]; cbn [Daemon.calls]; intros ts l l' H L; [apply Ok_inj in H; now subst|].
  destruct (call _ _ _ _ _) as [l1| | |] eqn:E; cbn [bind] in H; try discriminate H. eapply IH; [exact H|]. eapply call_linked; eauto.
Qed.
Lemma adds_linked d0 devs : forall ts l l', add_devices fuel wr devs ts l = Ok l' -> linkedl d0 l -> linkedl d0 l'.
Proof.
  induction devs as [|[dv g] r IH]; cbn [add_devices]; intros ts l l' H L; [apply Ok_inj in H; now subst|].
  destruct (Nat.ltb _ 64); [|discriminate H]. destruct (call _ _ _ _ _) as [l1| | |] eqn:E; cbn [bind] in H; try discriminate H.
  eapply IH; [exact H|]. eapply call_linked; [exact E|]. unfold linkedl. cbn [lp_calls lp_d]. apply ln_devs, L.
Qed.
Lemma read_linked d0 i rs : forall ts l l', read_device fuel wr i rs ts l = Ok l' -> linkedl d0 l -> linkedl d0 l'.
Proof.
  induction rs as [|r rs IH]; cbn [read_device]; intros ts l l' H L; [apply Ok_inj in H; now subst|].
  destruct (nth_error (d_devs (lp_d l)) i) as [dv|] eqn:En; [|discriminate H].
  destruct (device_read_event _ _ _) as [[de ret]| | |]; cbn [bind] in H; try discriminate H.
  destruct ret; cbn [negb] in H; [|apply Ok_inj in H; subst; unfold linkedl; cbn [lp_calls lp_d]; apply ln_devs, L].
  destruct (de_type de).
  6:{ destruct (call _ _ _ _ _) as [l2| | |] eqn:E; cbn [bind] in H; try discriminate H. apply Ok_inj in H. subst. unfold linkedl. cbn [lp_calls lp_d]. apply ln_devs.
      eapply call_linked; [exact E|]. unfold linkedl. cbn [lp_calls lp_d]. apply ln_devs, L. }
  all: destruct (panic_check _ _ _) as [s die]; destruct die; [apply Ok_inj in H; subst; unfold linkedl; cbn [lp_calls lp_d]; apply ln_devs, L|].
  all: destruct (call _ _ _ _ _) as [l3| | |] eqn:E; cbn [bind] in H; try discriminate H; eapply IH; [exact H|]; eapply call_linked; [exact E|]; unfold linkedl; cbn [lp_calls lp_d]; apply ln_devs, L.
Qed.
Lemma reads_linked d0 reads is : forall ts l l', read_devices fuel wr reads is ts l = Ok l' -> linkedl d0 l -> linkedl d0 l'.
Proof.
  induction is as [|i r IH]; cbn [read_devices]; intros ts l l' H L; [apply Ok_inj in H; now subst|]. destruct (lp_dead l); [apply Ok_inj in H; now subst|].
  destruct (read_device _ _ _ _ _ _) as [l1| | |] eqn:E; cbn [bind] in H; try discriminate H. eapply IH; [exact H|]. eapply read_linked; eauto.
Qed.
Lemma round_linked d0 r l l' : loop_round fuel wr r l = Ok l' -> linkedl d0 l -> linkedl d0 l'.
Proof.
  intros H L. apply round_cases in H as [[-> _]|(_ & l1 & l2 & E1 & E2 & H)]; [exact L|].
  assert (L1 : linkedl d0 l1) by (destruct (andb _ _); [eapply call_linked; eauto|apply Ok_inj in E1; subst; exact L]).
  eapply reads_linked in E2; [|exact L1].
  destruct H as [[_ ->]|(_ & l3 & l4 & E3 & E4 & ->)]; [exact E2|]. eapply calls_linked in E3; [|exact E2]. eapply adds_linked in E4; [|exact E3].
  unfold linkedl. cbn [lp_calls lp_d]. apply ln_devs, E4.
Qed.
Lemma runs_linked l : runs fuel wr l -> exists texts grabs d0, reload texts grabs (d_init []) = Ok d0 /\ linkedl d0 l.
Proof.
  induction 1 as [texts devs grabs ts l Hf H|r l l' Hr IH Hf H].
  - unfold start in H. destruct (reload _ _ _) as [d| | |] eqn:Er; cbn [bind] in H; try discriminate H.
    destruct (Daemon.calls _ _ _ _ _) as [l1| | |] eqn:E; cbn [bind] in H; try discriminate H. apply Ok_inj in H. subst.
    exists texts, grabs, d. split; [exact Er|]. change (linkedl d l1). eapply calls_linked; [exact E|]. unfold linkedl. cbn [lp_calls lp_d]. apply ln_devs, ln_none.
  - destruct IH as (texts & grabs & d0 & E0 & L). exists texts, grabs, d0. split; [exact E0|]. eapply round_linked; eauto.
Qed.
Lemma linked_split d0 post x pre d : linked d0 (post ++ x :: pre) d -> exists d1,
  linked d0 pre (fst (fst (fst x))) /\ event_handler fuel wr (snd (fst (fst x))) (snd (fst x)) (fst (fst (fst x))) = Ok (d1, snd x) /\ linked d1 post d.
Proof.
  intros H. remember (post ++ x :: pre) as cl eqn:Ec. revert post Ec. induction H as [|cl d v H IH|cl d ev ts t d' H IH E]; intros post Ec.
  - destruct post; discriminate Ec.
  - destruct (IH post Ec) as (d1 & A & B & C). exists d1. repeat split; try assumption. now apply ln_devs.
  - destruct post as [|y post]; cbn [app] in Ec.
    + injection Ec as <- <-. cbn [fst snd]. exists d'. repeat split; try assumption. apply ln_none.
    + injection Ec as <- ->. destruct (IH post eq_refl) as (d1 & A & B & C). exists d1. repeat split; try assumption. eapply ln_call; eauto.
Qed.
End Linked.

Lemma requests_app p : forall a q, requests a (p ++ q) = requests a p ++ requests (fold_left (fun a (x : dstate * event * Z) => in_use a (fst (fst x)) (snd (fst x))) p a) q.
Proof.
  induction p as [|[[d ev] ts] p IH]; intros a q; [reflexivity|]. cbn [app requests fold_left fst snd]. now rewrite IH, app_assoc.
Qed.
(* ---- a relation kept by every call of the engine is kept by the handler -------------------- *)
Section Carry.
Variable tied : option nat -> list (nat * kev) -> dstate -> Prop.
Variable bounded : list (nat * kev) -> Prop.
Hypothesis bounded_prefix : forall a b, bounded (a ++ b) -> bounded a.
Hypothesis tied_same : forall a evs d d', d_ents d' = d_ents d -> d_clock d' = d_clock d -> paper d' = paper d -> d_active d' = d_active d -> d_gen d' = d_gen d ->
  tied a evs d -> tied a evs d'.
Hypothesis run_tied : forall fuel wr p e a evs d d' t, run_kbd fuel wr p e d = Ok (d', t) -> tied a evs d -> bounded (evs ++ [(snd p, e)]) ->
  tied a (evs ++ [(snd p, e)]) d'.
Hypothesis store_tied : forall p k s a evs d, deref d p = Ok k -> s_sens s = s_sens (k_scroll k) -> s_active s = s_active (k_scroll k) ->
  tied a evs d -> tied a evs (store p (set_k_scroll s k) d).
Hypothesis active_tied : forall a evs d (p : kptr), tied a evs d -> fst p = d_gen d -> tied (Some (snd p)) evs (set_d_active (Some p) d).
Hypothesis t_use : forall a evs d, tied a evs d -> a = match d_active d with Some (g, j) => if Nat.eqb g (d_gen d) then Some j else None | None => None end.
Lemma tied_app a evs d : tied a evs d -> tied a (evs ++ []) d.
Proof. now rewrite app_nil_r. Qed.
Lemma press_tied fuel wr p code ts a evs d d' t : process_keypress fuel wr p code ts d = Ok (d', t) -> tied a evs d ->
  bounded (evs ++ map (pair (snd p)) (strokes code ts)) -> tied a (evs ++ map (pair (snd p)) (strokes code ts)) d'.
Proof.
  unfold process_keypress. intros H T B. destruct (run_kbd fuel wr p (mkKev code true ts) d) as [[d1 t1]| | |] eqn:E; cbn [bind] in H; try discriminate H.
  unfold strokes in *. cbn [map] in *. change [(snd p, mkKev code true ts); (snd p, mkKev code false ts)] with ([(snd p, mkKev code true ts)] ++ [(snd p, mkKev code false ts)]) in *.
  rewrite app_assoc in *. eapply run_tied; [exact H| |exact B]. eapply run_tied; [exact E|exact T|]. now apply bounded_prefix in B.
Qed.
Lemma presses_tied fuel wr p code ts n : forall tmo a evs d d' t, keypresses fuel wr p code ts n tmo d = Ok (d', t) -> tied a evs d ->
  bounded (evs ++ map (pair (snd p)) (concat (repeat (strokes code ts) n))) -> tied a (evs ++ map (pair (snd p)) (concat (repeat (strokes code ts) n))) d'.
Proof.
  induction n as [|n IH]; cbn [keypresses]; intros tmo a evs d d' t H T B.
  - apply Ok_inj in H. injection H as <- _. cbn [repeat concat map]. now apply tied_app.
  - destruct (process_keypress fuel wr p code ts d) as [[d1 t1]| | |] eqn:E; cbn [bind] in H; try discriminate H.
    cbn [repeat concat] in *. rewrite map_app in *. rewrite app_assoc in *. eapply IH; [exact H| |exact B]. eapply press_tied; [exact E|exact T|]. now apply bounded_prefix in B.
Qed.

Lemma motion_tied p k s vs a evs d : deref d p = Ok k -> s_sens s = s_sens (k_scroll k) -> s_active s = s_active (k_scroll k) ->
  Forall (fun v => match v with VScroll _ _ => True | _ => False end) vs ->
  tied a evs d -> tied a evs (fold_left (fun d v => vemit v d) vs (store p (set_k_scroll s k) d)).
Proof.
  intros E S1 S2 V T. pose proof (store_tied _ _ _ _ _ _ E S1 S2 T) as T0.
  clear T. revert T0. generalize (store p (set_k_scroll s k) d) as e. induction V as [|v vs V1 V2 IH]; intros e T0; [exact T0|]. cbn [fold_left]. apply IH.
  eapply tied_same; [..|exact T0]; try reflexivity. apply paper_silent. destruct v; try contradiction V1; reflexivity.
Qed.
Lemma wheel_tied fuel wr p x forth back ts t0 a evs d d' t :
  (if (x =? 0)%Z then Ok (d, t0) else keypresses fuel wr p (if (0 <? x)%Z then forth else back) ts (Z.to_nat (Z.abs x)) t0 d) = Ok (d', t) ->
  tied a evs d -> bounded (evs ++ map (pair (snd p)) (wheeled x forth back ts)) -> tied a (evs ++ map (pair (snd p)) (wheeled x forth back ts)) d'.
Proof.
  destruct (Z.eqb_spec x 0) as [->|Hx]; intros H T B.
  - apply Ok_inj in H. injection H as <- _. now apply tied_app.
  - unfold wheeled in *. eapply presses_tied; eauto.
Qed.
Lemma device_tied fuel wr i de ts a evs d d' r : device_event fuel wr i de ts d = Ok (d', r) -> ptr_ok d -> tied a evs d ->
  bounded (evs ++ asked a d (EvDev i de) ts) -> tied (in_use a d (EvDev i de)) (evs ++ asked a d (EvDev i de) ts) d'.
Proof.
  unfold device_event, asked, in_use, keyboard_of, foreign. intros H P T B.
  destruct (nth_error (d_devs d) i) as [dv|] eqn:En; [|discriminate H]. destruct (dv_data dv) as [p|] eqn:Ed; cbn [option_map] in *.
  - assert (G : fst p = d_gen d) by (apply (po_dev _ P dv p) in Ed; [apply Ed|now apply nth_error_In in En]).
    pose proof (active_tied a evs d p T G) as T1. set (d1 := set_d_active (Some p) d) in *. clearbody d1. destruct (de_type de).
    + destruct (run_kbd _ _ _ _ _) as [[d2 t1]| | |] eqn:E; cbn [bind] in H; try discriminate H. apply Ok_inj in H. injection H as <- _.
      cbn [map] in *. eapply (run_tied _ _ p); [exact E|exact T1|exact B].
    + apply Ok_inj in H. injection H as <- _. now apply tied_app.
    + destruct (deref d1 p) as [k| | |] eqn:Ek; cbn [bind] in H; try discriminate H. rewrite app_nil_r.
      destruct (s_active (k_scroll k)).
      * destruct (scroll_move (k_scroll k) (de_x de) (de_y de)) as [[s vs]| | |] eqn:Es; cbn [bind] in H; try discriminate H.
        apply Ok_inj in H. injection H as <- _. unfold scroll_move in Es.
        destruct (s_sens (k_scroll k) =? 0)%Z; [apply Ok_inj in Es; injection Es as <- <-; eapply motion_tied; eauto|].
        destruct (andb _ _); [|discriminate Es]. apply Ok_inj in Es. injection Es as <- <-. eapply motion_tied; eauto.
      * apply Ok_inj in H. injection H as <- _. eapply tied_same; [..|exact T1]; reflexivity.
    + apply Ok_inj in H. injection H as <- _. rewrite app_nil_r. eapply tied_same; [..|exact T1]; reflexivity.
    + cbv zeta in H.
      match type of H with bind ?x _ = _ => destruct x as [[d2 t1]| | |] eqn:E1; cbn [bind] in H; try discriminate H end.
      match type of H with bind ?x _ = _ => destruct x as [[d3 t2]| | |] eqn:E2; cbn [bind] in H; try discriminate H end.
      apply Ok_inj in H. injection H as <- _. rewrite map_app in *. rewrite app_assoc in *.
      eapply wheel_tied; [exact E2| |exact B]. eapply wheel_tied; [exact E1|exact T1|]. now apply bounded_prefix in B.
    + apply Ok_inj in H. injection H as <- _. now apply tied_app.
  - destruct (negb (dv_virtual dv) && negb (N.land (dv_caps dv) CAP_MOUSE =? 0)%N) eqn:F.
    + destruct (d_active d) as [p|] eqn:Ea.
      * assert (X : forall code, process_keypress fuel wr p code ts d = Ok (d', match r with Some t => t | None => 0%Z end) -> a = Some (snd p)).
        { intros code H0. unfold process_keypress in H0. destruct (run_kbd fuel wr p (mkKev code true ts) d) as [[d1 t1]| | |] eqn:E; cbn [bind] in H0; try discriminate H0.
          apply run_inv in E as (k & _ & _ & E & _). unfold deref in E. rewrite (t_use _ _ _ T), Ea. destruct p as [g j]. cbn [fst snd] in *. destruct (Nat.eqb g (d_gen d)); [reflexivity|discriminate E]. }
        destruct (de_type de); try (apply Ok_inj in H; injection H as <- _; now apply tied_app).
        all: destruct (process_keypress _ _ _ _ _ _) as [[d1 t1]| | |] eqn:E; cbn [bind] in H; try discriminate H; apply Ok_inj in H; injection H as <- <-.
        all: rewrite (X _ E) in B |- *; rewrite <- (X _ E) at 1; eapply press_tied; eauto.
      * assert (a = None) by (rewrite (t_use _ _ _ T), Ea; reflexivity). subst a.
        destruct (de_type de); apply Ok_inj in H; injection H as <- _; now apply tied_app.
    + assert (Z0 : tied a evs d').
      { destruct (dv_virtual dv); [|apply Ok_inj in H; injection H as <- _; exact T].
        destruct (de_type de); try (apply Ok_inj in H; injection H as <- _; exact T).
        apply Ok_inj in H. injection H as <- _. generalize (combine (seq 0 (length (d_devs d))) (d_devs d)) as l. clear -T tied_same. revert d T.
        intros d T l. revert d T. induction l as [|[j v] l IH]; intros d T; [exact T|]. cbn [fold_left]. apply IH.
        destruct (dv_data v); [eapply tied_same; [..|exact T]; reflexivity|exact T]. }
      destruct (de_type de); now apply tied_app.
Qed.
Lemma handler_tied fuel wr ev ts a evs d d' t : event_handler fuel wr ev ts d = Ok (d', t) -> ptr_ok d -> undisturbed ev -> tied a evs d ->
  bounded (evs ++ asked a d ev ts) -> tied (in_use a d ev) (evs ++ asked a d ev ts) d'.
Proof.
  unfold event_handler. cbv zeta. intros H P U T B.
  set (t0 := Z.max 0 (d_timeout d - (ts - d_last d))) in *. clearbody t0.
  assert (Ti : forall a evs x t1, tied a evs x -> tied a evs (set_d_times ts t1 x)) by (intros; eapply tied_same; [..|eassumption]; reflexivity).
  destruct ev as [|i de|i grab|i|con m texts grabs].
  - cbn [set_d_times d_active] in H. cbn [asked in_use] in *. destruct (d_active d) as [p|] eqn:Ea.
    + destruct (run_kbd _ _ _ _ _) as [[d1 t1]| | |] eqn:E; cbn [bind] in H; try discriminate H. apply Ok_inj in H. injection H as <- _. apply Ti.
      pose proof E as E'. apply run_inv in E' as (k & _ & _ & E' & _). unfold deref in E'.
      assert (A : a = Some (snd p)). { rewrite (t_use _ _ _ T), Ea. destruct p as [g j]. cbn [set_d_times fst snd d_gen] in *. destruct (Nat.eqb g (d_gen d)); [reflexivity|discriminate E']. }
      subst a. cbn [map] in *. eapply run_tied; [exact E|now apply Ti|exact B].
    + apply Ok_inj in H. injection H as <- _. assert (a = None) by (rewrite (t_use _ _ _ T), Ea; reflexivity). subst a. apply tied_app. now apply Ti.
  - destruct (device_event _ _ _ _ _ _) as [[d1 r]| | |] eqn:E; cbn [bind] in H; try discriminate H. apply Ok_inj in H. injection H as <- _. apply Ti.
    eapply (device_tied fuel wr i de ts a evs (set_d_times ts t0 d)); [exact E| |now apply Ti|exact B].
    eapply ptr_same; [..|exact P]; reflexivity.
  - cbn [asked in_use]. apply tied_app. destruct (nth_error _ _); cbn [bind] in H; try discriminate H. apply Ok_inj in H. injection H as <- _. apply Ti.
    eapply tied_same; [..|exact T]; reflexivity.
  - cbn [asked in_use bind] in *. apply tied_app. apply Ok_inj in H. injection H as <- _. now apply Ti, Ti.
  - cbn [asked in_use]. apply tied_app. destruct (handle_client _ _ _ _ _ _) as [d1| | |] eqn:E; cbn [bind] in H; try discriminate H. apply Ok_inj in H. injection H as <- _. apply Ti.
    assert (T1 : tied a evs (set_d_times ts t0 d)) by now apply Ti. clear T. set (d0 := set_d_times ts t0 d) in *. clearbody d0. unfold handle_client in E. cbv zeta in E.
    assert (R : forall ok, tied a evs (vemit (VReply con ok) d0)) by (intros; eapply tied_same; [..|exact T1]; reflexivity).
    destruct (4096 <=? i_sz m)%N; [apply Ok_inj in E; subst; apply R|]. destruct (1000000 <? i_timeout m)%N; [apply Ok_inj in E; subst; apply R|].
    cbn [undisturbed] in U. destruct (i_type m); try (destruct U; discriminate).
    + pose proof (listener_paper _ _ _ _ E) as Lp. pose proof (listener_ents _ _ _ _ E) as (A1 & A2 & A3 & A4 & A5).
      eapply tied_same; [..|exact T1]; assumption.
    + apply Ok_inj in E. subst. apply R.
Qed.
Lemma linked_tied fuel wr d0 cl d :
  linked fuel wr d0 cl d -> (forall d ev ts t, In (d, ev, ts, t) cl -> ptr_ok d /\ undisturbed ev) ->
  tied None [] d0 -> bounded (requests None (map fst (rev cl))) ->
  tied (fold_left (fun a (x : dstate * event * Z) => in_use a (fst (fst x)) (snd (fst x))) (map fst (rev cl)) None) (requests None (map fst (rev cl))) d.
Proof.
  induction 1 as [|cl d v H IH|cl d ev ts t d' H IH E]; intros Q T B.
  - exact T.
  - eapply tied_same; [..|exact (IH Q T B)]; reflexivity.
  - cbn [rev] in *. rewrite map_app, requests_app, fold_left_app in *. cbn [map fst requests fold_left snd] in *. rewrite app_nil_r in *.
    destruct (Q d ev ts t (or_introl eq_refl)) as [P U].
    eapply (handler_tied fuel wr ev ts); [exact E|exact P|exact U| |exact B].
    apply IH; [intros; apply (Q d1 ev0 ts0 t0); now right|exact T|]. eapply bounded_prefix; eauto.
Qed.
End Carry.

(* ---- the events of one keyboard --------------------------------------------------------- *)
Definition mine (j : nat) (evs : list (nat * kev)) : list kev := map snd (filter (fun x => Nat.eqb (fst x) j) evs).
Lemma mine_app j a b : mine j (a ++ b) = mine j a ++ mine j b.
Proof. unfold mine. now rewrite filter_app, map_app. Qed.
Lemma mine_prefix j evs : forall n, exists n', firstn n (mine j evs) = mine j (firstn n' evs).
Proof.
  induction evs as [|[i e] evs IH]; intros n; [exists 0; now rewrite firstn_nil|]. unfold mine in *. cbn [filter fst]. destruct (Nat.eqb i j) eqn:E.
  - destruct n as [|n]; [now exists 0|]. destruct (IH n) as [n' X]. exists (S n'). cbn [map firstn filter fst]. rewrite E. cbn [map]. now rewrite X.
  - destruct (IH n) as [n' X]. exists (S n'). cbn [firstn filter fst]. now rewrite E.
Qed.

Section Sys.
Variable cs : list config.
Notation heard := (heard cs).
Notation hear := (hear cs).
Lemma hear_length s x : length (y_ms (hear s x)) = length (y_ms s).
Proof.
  unfold SpecSystem.hear. destruct (nth_error cs (fst x)); [|reflexivity]. destruct (nth_error (y_ms s) (fst x)); [|reflexivity]. cbn [y_ms]. apply upd_length.
Qed.
Lemma heard_snoc evs x : heard (evs ++ [x]) = hear (heard evs) x.
Proof. unfold SpecSystem.heard. now rewrite fold_left_app. Qed.
Lemma heard_ms : forall evs j c, nth_error cs j = Some c -> nth_error (y_ms (heard evs)) j = Some (run c (mine j evs)).
Proof.
  intros evs. induction evs as [|x evs IH] using rev_ind; intros j c Hj.
  - unfold SpecSystem.heard, at_first. cbn [fold_left y_ms]. rewrite nth_error_map, Hj. reflexivity.
  - rewrite heard_snoc, mine_app. unfold SpecSystem.hear. destruct x as [i e]. unfold mine at 2. cbn [filter fst snd].
    destruct (Nat.eqb_spec i j) as [Ei|Hn].
    + subst i. cbn [map snd]. rewrite Hj, (IH j c Hj). cbn [y_ms]. rewrite nth_upd_error, Nat.eqb_refl.
      assert (L : j < length (y_ms (heard evs))) by (apply nth_error_Some; rewrite (IH j c Hj); discriminate).
      apply Nat.ltb_lt in L. rewrite L. cbn [andb]. unfold run. now rewrite fold_left_app.
    + rewrite app_nil_r. destruct (nth_error cs i); [|now apply IH]. destruct (nth_error (y_ms (heard evs)) i); [|now apply IH]. cbn [y_ms].
      rewrite nth_upd_error. destruct (Nat.eqb_spec i j); [contradiction|]. cbn [andb]. now apply IH.
Qed.

Notation bounded := (ordinary cs).
Lemma bounded_prefix a b : bounded (a ++ b) -> bounded a.
Proof.
  intros [A B]. split; [intros x Hx; apply A, in_or_app; now left|]. intros n m Hm. destruct (Nat.le_gt_cases n (length a)) as [L|L].
  - apply (B n). rewrite firstn_app. replace (n - length a) with 0 by lia. cbn [firstn]. now rewrite app_nil_r.
  - apply (B (length a)). rewrite firstn_app, Nat.sub_diag, firstn_all. cbn [firstn]. rewrite app_nil_r. now rewrite firstn_all2 in Hm by lia.
Qed.

(* ---- the invariant ----------------------------------------------------------------------- *)
Hypothesis Cm : forall j c, nth_error cs j = Some c -> common c.
Variable clk : Z.
Hypothesis Dn : forall j c, nth_error cs j = Some c -> (dawn c <= clk)%Z.
Variable before : list vev.

Lemma log_of evs j c k : bounded evs -> nth_error cs j = Some c -> calls_of c clk (mine j evs) k -> k_out k = o_log (m_host (run c (mine j evs))).
Proof.
  intros [A B] Hj H. apply (C69_run c clk (mine j evs) k); [now apply (Cm j)|now apply (Dn j)|exact H| |].
  - intros e He. unfold mine in He. apply in_map_iff in He as (x & <- & Hx). apply filter_In in Hx as [Hx _]. now apply A.
  - intros n. destruct (mine_prefix j evs n) as [n' ->]. apply (B n'). apply nth_error_In with (n := j). now apply heard_ms.
Qed.

Record tied (a : option nat) (evs : list (nat * kev)) (d : dstate) : Prop := Tied {
  t_len : length (d_ents d) = length cs;
  t_kbd : forall j c, nth_error cs j = Some c -> exists k, nth_error (d_ents d) j = Some k /\ (k_clock k <= d_clock d)%Z /\ k_orig k = c /\ calls_of c clk (mine j evs) k;
  t_out : paper d = y_out (heard evs) ++ before;
  t_use : a = match d_active d with Some (g, j) => if Nat.eqb g (d_gen d) then Some j else None | None => None end
}.
Lemma tied_same a evs d d' : d_ents d' = d_ents d -> d_clock d' = d_clock d -> paper d' = paper d -> d_active d' = d_active d -> d_gen d' = d_gen d ->
  tied a evs d -> tied a evs d'.
Proof. intros E1 E2 E3 E4 E5 []. constructor; rewrite ?E1, ?E2, ?E3, ?E4, ?E5; assumption. Qed.

Lemma run_tied fuel wr p e a evs d d' t : run_kbd fuel wr p e d = Ok (d', t) -> tied a evs d -> bounded (evs ++ [(snd p, e)]) ->
  tied a (evs ++ [(snd p, e)]) d'.
Proof.
  intros H T Bd. apply run_inv in H as (k & k1 & d1 & E1 & E2 & E3 & ->). pose proof (deliver_paper _ _ _ _ _ _ E3) as Pa. apply deliver_ents in E3 as (A1 & A2 & A3 & A4 & A5).
  cbn [d_ents d_gen d_clock d_devs d_active set_d_clock] in A1, A2, A3, A4, A5. rewrite rev_involutive in Pa. destruct T as [T1 T2 T3 T4].
  destruct p as [g j]. cbn [snd] in *. unfold deref in E1. cbn [fst snd] in E1. destruct (Nat.eqb g (d_gen d)); [|discriminate E1].
  destruct (nth_error (d_ents d) j) as [k0|] eqn:Ek; [|discriminate E1]. apply Ok_inj in E1. subst k0.
  assert (Lj : j < length (d_ents d)) by (apply nth_error_Some; rewrite Ek; discriminate).
  destruct (nth_error cs j) as [c|] eqn:Ec; [|apply nth_error_None in Ec; lia].
  destruct (T2 j c Ec) as (k0 & Ek0 & Ck & Co & Ca). rewrite Ek in Ek0. injection Ek0 as <-.
  assert (Kc : (d_clock d <= k_clock k1)%Z).
  { apply kbd_process_events_steps in E2. apply steps_clock in E2. exact E2. }
  assert (Co1 : k_orig k1 = c) by (apply events_orig in E2 as [_ E2]; cbn [k_orig set_k_clock] in E2; congruence).
  apply one_call in E2 as [f E2].
  assert (Ca1 : calls_of c clk (mine j (evs ++ [(j, e)])) k1).
  { rewrite mine_app. unfold mine at 2. cbn [filter fst map snd]. rewrite Nat.eqb_refl. cbn [map snd].
    eapply co_call; [|exact E2]. eapply co_outside; [exact Ca|]. now apply out_clock. }
  constructor; cbn [store d_ents d_clock d_active d_gen set_d_ents].
  - now rewrite upd_length, A1.
  - intros i ci Hi. cbn [snd]. rewrite A1, A3, nth_upd_error. destruct (Nat.eqb_spec j i) as [Ei|Hn].
    + subst i. cbn [snd]. apply Nat.ltb_lt in Lj. rewrite Lj. cbn [andb]. exists k1. rewrite Ec in Hi. injection Hi as <-. split; [reflexivity|]. split; [lia|]. split; [exact Co1|exact Ca1].
    + cbn [andb]. destruct (T2 i ci Hi) as (ki & X1 & X2 & X4 & X3). exists ki. split; [exact X1|]. split; [lia|]. split; [exact X4|].
      rewrite mine_app. unfold mine at 2. cbn [filter fst]. destruct (Nat.eqb_spec j i); [contradiction|]. cbn [map]. now rewrite app_nil_r.
  - change (paper (store (g, j) k1 d1)) with (paper d1). rewrite Pa. change (paper (set_d_clock (k_clock k1) d)) with (paper d). rewrite T3, app_assoc. f_equal.
    rewrite heard_snoc. unfold SpecSystem.hear. cbn [fst snd]. rewrite Ec, (heard_ms evs j c Ec). cbn [y_out].
    pose proof (log_of _ _ _ _ (bounded_prefix _ _ Bd) Ec Ca) as L0. pose proof (log_of _ _ _ _ Bd Ec Ca1) as L1.
    rewrite L0, L1. rewrite mine_app. change (mine j [(j, e)]) with (map snd (filter (fun x => Nat.eqb (fst x) j) [(j, e)])). cbn [filter fst]. rewrite Nat.eqb_refl. cbn [map snd]. unfold run. now rewrite fold_left_app.
  - rewrite A5, A2. exact T4.
Qed.
Lemma store_tied p k s a evs d : deref d p = Ok k -> s_sens s = s_sens (k_scroll k) -> s_active s = s_active (k_scroll k) ->
  tied a evs d -> tied a evs (store p (set_k_scroll s k) d).
Proof.
  intros E S1 S2 T. destruct T as [T1 T2 T3 T4]. constructor; cbn [store d_ents d_clock d_active d_gen set_d_ents]; [now rewrite upd_length| |exact T3|exact T4].
    intros i ci Hi. destruct (T2 i ci Hi) as (ki & X1 & X2 & X4 & X3). rewrite nth_upd_error. destruct (Nat.eqb_spec (snd p) i) as [Ei|Hn].
    - subst i. unfold deref in E. destruct (Nat.eqb _ _); [|discriminate E]. rewrite X1 in E. apply Ok_inj in E. subst ki.
      assert (L : snd p < length (d_ents d)) by (apply nth_error_Some; rewrite X1; discriminate). apply Nat.ltb_lt in L. rewrite L. cbn [andb].
      exists (set_k_scroll s k). split; [reflexivity|]. split; [exact X2|]. split; [exact X4|]. eapply co_outside; [exact X3|].
      destruct s as [x y n b]. cbn [s_sens s_active] in *. subst n b. apply out_motion.
    - cbn [andb]. exists ki. auto.
Qed.
Lemma active_tied a evs d (p : kptr) : tied a evs d -> fst p = d_gen d -> tied (Some (snd p)) evs (set_d_active (Some p) d).
Proof.
  intros [T1 T2 T3 T4] G. constructor; try assumption. cbn [set_d_active d_active d_gen]. destruct p as [g j]. cbn [fst snd] in *. subst g. now rewrite Nat.eqb_refl.
Qed.

End Sys.
Section Whole.
Variable cs : list config.
Hypothesis Cm : forall j c, nth_error cs j = Some c -> common c.
Variable clk : Z.
Hypothesis Dn : forall j c, nth_error cs j = Some c -> (dawn c <= clk)%Z.
Lemma linked_system fuel wr d0 cl d :
  linked fuel wr d0 cl d -> (forall d ev ts t, In (d, ev, ts, t) cl -> ptr_ok d /\ undisturbed ev) ->
  tied cs clk (paper d0) None [] d0 ->
  ordinary cs (requests None (map fst (rev cl))) ->
  tied cs clk (paper d0) (fold_left (fun a (x : dstate * event * Z) => in_use a (fst (fst x)) (snd (fst x))) (map fst (rev cl)) None) (requests None (map fst (rev cl))) d.
Proof.
  apply (linked_tied (tied cs clk (paper d0)) (ordinary cs)).
  - apply bounded_prefix.
  - apply tied_same.
  - intros. eapply run_tied; eauto.
  - intros. eapply store_tied; eauto.
  - apply active_tied.
  - intros a evs d1 T. apply (t_use _ _ _ _ _ _ T).
Qed.
End Whole.

(* ---- where it begins: after the configurations were loaded ------------------------------------- *)
Lemma fresh_tied ents clk d : (forall k, In k ents -> exists c, k = new_keyboard c clk) -> d_ents d = ents -> d_clock d = clk ->
  match d_active d with Some (g, _) => g < d_gen d | None => True end -> tied (origs d) clk (paper d) None [] d.
Proof.
  intros F <- <- A. constructor; unfold origs.
  - now rewrite map_length.
  - intros j c Hj. rewrite nth_error_map in Hj. destruct (nth_error (d_ents d) j) as [k|] eqn:E; [|discriminate Hj]. injection Hj as <-.
    destruct (F k (nth_error_In _ _ E)) as [c Ek]. exists k. split; [reflexivity|]. subst k. split; [cbn [new_keyboard k_clock]; lia|]. split; [reflexivity|]. apply co_start.
  - reflexivity.
  - destruct (d_active d) as [[g j]|]; [|reflexivity]. destruct (Nat.eqb_spec g (d_gen d)); [lia|reflexivity].
Qed.
Lemma reload_tied texts grabs d d' : reload texts grabs d = Ok d' -> match d_active d with Some (g, _) => g < S (d_gen d) | None => True end ->
  d_clock d' = d_clock d /\ tied (origs d') (d_clock d) (paper d') None [] d'.
Proof.
  intros H A. apply reload_inv in H as (ents & L & ->). destruct (clear_ents (reload_base texts grabs d ents)) as (A1 & A2 & A3 & A4 & A5).
  set (d' := clear_vkbd (reload_base texts grabs d ents)) in *. clearbody d'.
  change (d_ents (reload_base texts grabs d ents)) with ents in A1. change (d_gen (reload_base texts grabs d ents)) with (S (d_gen d)) in A2.
  change (d_clock (reload_base texts grabs d ents)) with (d_clock d) in A3. change (d_active (reload_base texts grabs d ents)) with (d_active d) in A5.
  split; [exact A3|]. eapply fresh_tied; [|exact A1|exact A3|now rewrite A5, A2].
  intros k Hk. destruct (load_fresh _ _ _ _ L k Hk) as [[]|(text & c & _ & _ & E)]. eauto.
Qed.
Lemma nth_error_ext_eq {A} : forall l l' : list A, (forall i, nth_error l i = nth_error l' i) -> l = l'.
Proof.
  induction l as [|x l IH]; intros [|y l'] H; [reflexivity|specialize (H 0); discriminate H|specialize (H 0); discriminate H|].
  pose proof (H 0) as H0. injection H0 as ->. f_equal. apply IH. intros i. exact (H (S i)).
Qed.
Lemma tied_origs cs clk b a evs d : tied cs clk b a evs d -> origs d = cs.
Proof.
  intros [T1 T2 _ _]. unfold origs. apply nth_error_ext_eq. intros j. rewrite nth_error_map. destruct (nth_error cs j) as [c|] eqn:E.
  - destruct (T2 j c E) as (k & -> & _ & <- & _). reflexivity.
  - apply nth_error_None in E. rewrite <- T1 in E. apply nth_error_None in E. now rewrite E.
Qed.

Lemma linked_origs fuel wr d0 cl d : linked fuel wr d0 cl d -> (forall d ev ts t, In (d, ev, ts, t) cl -> undisturbed ev) -> origs d = origs d0.
Proof.
  induction 1 as [|cl d v H IH|cl d ev ts t d' H IH E]; intros Q; [reflexivity|now apply IH|].
  rewrite <- IH by (intros; apply (Q d1 ev0 ts0 t0); now right). pose proof (Q d ev ts t (or_introl eq_refl)) as U.
  destruct ev as [|i de|i g|i|con m texts grabs].
  3:{ apply add_event in E as (dv & _ & _ & E & _). exact E. }
  all: apply quiet_handler in E as (_ & E & _); [exact E|]; try exact Logic.I.
  cbn in U. cbn. destruct U as [-> | -> ]; discriminate.
Qed.
Lemma load_cons t texts clock acc : load_files (t :: texts) clock acc = bind (config_parse t) (fun c => load_files texts clock (match c with Some c => new_keyboard c clock :: acc | None => acc end)).
Proof. reflexivity. Qed.
Lemma bind_yes {A B} (x : A) (f : A -> res B) : bind (Ok x) f = f x.
Proof. reflexivity. Qed.
Lemma load_one t texts clock acc ents c : config_parse t = Ok (Some c) -> load_files (t :: texts) clock acc = Ok ents -> load_files texts clock (new_keyboard c clock :: acc) = Ok ents.
Proof. intros Ht L. rewrite load_cons, Ht, bind_yes in L. exact L. Qed.
Lemma load_rev texts cs clock ents : Forall2 (fun t c => config_parse t = Ok (Some c)) texts cs -> forall acc,
  load_files texts clock acc = Ok ents -> map k_orig ents = rev cs ++ map k_orig acc.
Proof.
  induction 1 as [|t c texts cs Ht F IH]; intros acc L.
  - cbn [load_files] in L. apply Ok_inj in L. now subst.
  - apply (load_one _ _ _ _ _ _ Ht) in L. apply IH in L. rewrite L. cbn [rev]. rewrite <- app_assoc. reflexivity.
Qed.
Lemma reload_origs texts grabs d d' cs : reload texts grabs d = Ok d' -> Forall2 (fun t c => config_parse t = Ok (Some c)) texts cs -> origs d' = rev cs.
Proof.
  intros H F. apply reload_inv in H as (ents & L & ->). destruct (clear_ents (reload_base texts grabs d ents)) as (A1 & _).
  set (d' := clear_vkbd (reload_base texts grabs d ents)) in *. clearbody d'. change (d_ents (reload_base texts grabs d ents)) with ents in A1.
  unfold origs. rewrite A1. rewrite (load_rev _ _ _ _ F [] L). cbn [map]. apply app_nil_r.
Qed.
