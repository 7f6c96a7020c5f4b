(* C64: the keys the daemon presses have names. *)
From Coq Require Import String.
From Verif Require Import Base Lib Types KeyTable Keys UnicodeTable MacroExec Str MacroParse Kbd Steps Config Outside Hist
  Device Match Daemon SpecDaemon SpecMods SpecSource SourceProofs SourceParse PropSource DaemonProofs EntryProofs Uinput SpecCaps.
From Coq Require Import List.
Import ListNotations.
Local Open Scope list_scope.
Local Notation length := List.length.
Local Open Scope N_scope.

Definition bound_key (x : N) : Prop := named_key x \/ x = K_EXTERNAL_MOUSE.
Notation kfrom := (from bound_key named_key anyr).

Lemma KP x : bound_key x -> x <> K_NOOP -> x <> K_EXTERNAL_MOUSE -> named_key x.
Proof. intros [H| ->] ? ?; [exact H|congruence]. Qed.
Lemma PR x : named_key x -> anyr x.
Proof. apply named_low. Qed.
Lemma Pmod mk : In mk modifiers -> named_key (snd mk).
Proof.
  intros H. apply namedb_ok. assert (A : forallb (fun m => namedb (snd m)) modifiers = true) by (vm_compute; reflexivity).
  rewrite forallb_forall in A. now apply A.
Qed.

(* all codes: nothing, the external mouse, chords, and keys with names *)
Lemma codes x : x < 256 -> x = 0 \/ is_chord_code x = true \/ bound_key x.
Proof.
  intros H. assert (A : forallb (fun i => (N.of_nat i =? 0) || is_chord_code (N.of_nat i) || (N.of_nat i =? K_EXTERNAL_MOUSE) || namedb (N.of_nat i)) (seq 0 256) = true)
    by (vm_compute; reflexivity).
  rewrite forallb_forall in A. specialize (A (N.to_nat x)). rewrite N2Nat.id in A.
  assert (B : In (N.to_nat x) (seq 0 256)) by (apply in_seq; lia). apply A in B.
  apply orb_true_iff in B as [B|B]; [|right; right; left; now apply namedb_ok].
  apply orb_true_iff in B as [B|B]; [|right; right; right; now apply N.eqb_eq in B].
  apply orb_true_iff in B as [B|B]; [left; now apply N.eqb_eq in B|now right; left].
Qed.

Definition sane_kbd (k : kbd) : Prop := kfrom k /\ cok (k_cfg k) /\ cok (k_orig k).
(* what the daemon sends *)
Definition v_ok (v : vev) : Prop := match v with VKey x true => named_key x | VKey x false => x < 256 | _ => True end.
Definition caps (d : dstate) : Prop := Forall sane_kbd (d_ents d) /\ Forall v_ok (d_out d).

(* relations between states: the keyboards are the same, what is sent is fine *)
Definition sends (d d' : dstate) : Prop := d_ents d' = d_ents d /\ (Forall v_ok (d_out d) -> Forall v_ok (d_out d')).
Lemma sends_refl d : sends d d. Proof. split; auto. Qed.
Lemma sends_trans a b c : sends a b -> sends b c -> sends a c.
Proof. intros [A1 A2] [B1 B2]. split; [congruence|auto]. Qed.
Lemma sends_emit v d : v_ok v -> sends d (vemit v d).
Proof. intros H. split; [reflexivity|]. intros A. cbn. constructor; auto. Qed.
Lemma sends_caps d d' : sends d d' -> caps d -> caps d'.
Proof. intros [A B] [C D]. split; [now rewrite A|auto]. Qed.
Lemma sends_key c s d : (s = true -> named_key c) -> sends d (dsend_key c s d).
Proof.
  intros H. unfold dsend_key. set (code := c mod 256).
  assert (V : v_ok (VKey code s)).
  { destruct s; cbn [v_ok]; [|apply N.mod_lt; discriminate]. specialize (H eq_refl). unfold code.
    rewrite N.mod_small by now apply named_low. exact H. }
  assert (S0 : sends d (set_d_ks (fupd (d_ks d) code s) d)) by (split; auto).
  repeat match goal with |- context [if ?b then _ else _] => destruct b end; try exact S0;
    (eapply sends_trans; [exact S0|apply sends_emit; first [exact Logic.I|exact V]]).
Qed.
Lemma sends_tap c d : named_key c -> sends d (tap c d).
Proof. intros H. eapply sends_trans; apply sends_emit; [exact H|now apply named_low]. Qed.
Lemma sends_deliver wr p c : forall os d d', Forall (o_from named_key anyr) os -> deliver_all wr p c os d = Ok d' -> sends d d'.
Proof.
  induction os as [|o os IH]; intros d d' Ho H; cbn [deliver_all] in H; [apply Ok_inj in H; subst; apply sends_refl|].
  bstep H d1 E. apply IH in H; [|exact (Forall_inv_tail Ho)]. apply Forall_inv in Ho. eapply sends_trans; [|exact H]. clear H.
  assert (G : deliver_all wr p c [o] d = Ok d1) by (cbn [deliver_all]; now rewrite E).
  destruct o as [x s|i on ind|t|us]; cbn [deliver] in E.
  - apply Ok_inj in E. subst d1. apply sends_key. intros ->. exact Ho.
  - revert E. unfold on_layer_change.
    assert (L : forall devs j d0, sends d0 (set_leds p ind devs j d0)).
    { intros devs j d0. apply leds_keeps; intros; try apply sends_refl; [eapply sends_trans; eauto|].
      apply sends_emit. destruct v; auto. contradiction. }
    intros H. cbv zeta in H.
    match type of H with match d_lst ?x with _ => _ end = _ => assert (L1 : sends d x) by (destruct (c_indicator c); [apply L|apply sends_refl]) end.
    destruct (d_lst _); [apply Ok_inj in H; subst; exact L1|]. bstep H text E2. apply Ok_inj in H. subst d1.
    eapply sends_trans; [exact L1|]. apply notify_keeps; intros; try (split; auto; fail); [eapply sends_trans; eauto|].
    apply sends_emit. destruct v; auto. contradiction.
  - apply Ok_inj in E. subst d1. apply sends_emit. exact Logic.I.
  - apply Ok_inj in E. subst d1. apply sends_emit. exact Logic.I.
Qed.

(* ---- keyboards --------------------------------------------------------------------- *)
Lemma caps_store p k d : caps d -> sane_kbd k -> caps (store p k d).
Proof. intros [A B] H. split; [|exact B]. cbn. now apply Forall_upd. Qed.
Lemma deref_sane d p k : caps d -> deref d p = Ok k -> sane_kbd k.
Proof. intros [A _] H. apply deref_in in H. rewrite Forall_forall in A. now apply A. Qed.
Lemma run_caps fuel wr p ev d d' t : ev_code ev < 256 -> run_kbd fuel wr p ev d = Ok (d', t) -> caps d -> caps d'.
Proof.
  intros He H Hc. apply run_inv in H as (k & k1 & d1 & E1 & E2 & E3 & ->).
  apply deref_sane in E1 as (W & C1 & C2); auto.
  assert (W0 : kfrom (set_k_clock (d_clock d) k)) by (apply (from_int bound_key named_key anyr k); auto; repeat split).
  assert (W1 : kfrom k1).
  { refine (from_events _ _ _ KP PR Pmod _ _ _ _ _ W0 _ E2). constructor; [|constructor]. now apply codes. }
  assert (Es := E2). apply kbd_process_events_steps in Es. apply steps_cfg in Es as [S1 S2].
  apply caps_store; [|split; [exact W1|rewrite S1, S2; auto]].
  eapply sends_caps; [eapply sends_deliver; [|exact E3]|exact Hc].
  apply Forall_rev. apply Forall_forall. intros o Ho. apply fr_out in W1. rewrite Forall_forall in W1. apply W1.
  rewrite <- (firstn_skipn (length (k_out k1) - length (k_out k)) (k_out k1)). apply in_app_iff. now left.
Qed.
Lemma keypress_caps fuel wr p c ts d d' t : c < 256 -> process_keypress fuel wr p c ts d = Ok (d', t) -> caps d -> caps d'.
Proof.
  intros Hc H Hd. unfold process_keypress in H. bstep H r E. destruct r as [d1 t1].
  eapply run_caps; [|exact H|]; [exact Hc|]. eapply run_caps; [|exact E|exact Hd]. exact Hc.
Qed.
Lemma keypresses_caps fuel wr p c ts : c < 256 -> forall n tmo d d' t, keypresses fuel wr p c ts n tmo d = Ok (d', t) -> caps d -> caps d'.
Proof.
  intros Hc. induction n as [|n IH]; cbn [keypresses]; intros tmo d d' t H Hd; [apply Ok_inj in H; now injection H as <- _|].
  bstep H r E. destruct r as [d1 t1]. eapply IH; [exact H|]. eapply keypress_caps; eauto.
Qed.
Lemma device_caps fuel wr i de ts d d' r : de_code de < 256 -> device_event fuel wr i de ts d = Ok (d', r) -> caps d -> caps d'.
Proof.
  intros Hde H Hd. unfold device_event in H. destruct (nth_error (d_devs d) i) as [dv|]; [|discriminate H].
  assert (Q : forall a : dstate, forall x : option Z, Ok (a, x) = Ok (d', r) -> caps a -> caps d')
    by (intros a x E; apply Ok_inj in E; now injection E as <- _).
  destruct (dv_data dv) as [p|].
  - change (caps (set_d_active (Some p) d)) in Hd. set (d1 := set_d_active (Some p) d) in *. clearbody d1. clear d.
    destruct (de_type de).
    + bstep H x E. destruct x as [d2 t]. eapply Q; [exact H|]. eapply run_caps; [|exact E|exact Hd]. exact Hde.
    + eapply Q; eauto.
    + bstep H k E. destruct (s_active (k_scroll k)).
      * bstep H x E2. destruct x as [s vs]. eapply Q; [exact H|].
        assert (G : caps (store p (set_k_scroll s k) d1)).
        { apply caps_store; auto. apply deref_sane in E as (W & C1 & C2); auto. split; [|split; auto].
          apply (from_int bound_key named_key anyr k); auto; repeat split. }
        unfold scroll_move in E2. destruct (_ =? 0)%Z; [apply Ok_inj in E2; injection E2 as _ <-; exact G|].
        destruct (andb _ _); [|discriminate]. apply Ok_inj in E2. injection E2 as _ <-. cbn [fold_left].
        eapply sends_caps; [eapply sends_trans; apply sends_emit; exact Logic.I|exact G].
      * eapply Q; [exact H|]. eapply sends_caps; [apply sends_emit; exact Logic.I|exact Hd].
    + eapply Q; [exact H|]. eapply sends_caps; [apply sends_emit; exact Logic.I|exact Hd].
    + bstep H x E1. destruct x as [d2 t2]. bstep H x E2. destruct x as [d3 t3]. eapply Q; [exact H|].
      assert (G : caps d2).
      { destruct (de_x de =? 0)%Z; [apply Ok_inj in E1; now injection E1 as <- _|].
        eapply keypresses_caps; [|exact E1|exact Hd]. destruct (0 <? de_x de)%Z; reflexivity. }
      destruct (de_y de =? 0)%Z; [apply Ok_inj in E2; now injection E2 as <- _|].
      eapply keypresses_caps; [|exact E2|exact G]. destruct (0 <? de_y de)%Z; reflexivity.
    + eapply Q; eauto.
  - destruct (negb (dv_virtual dv) && _).
    + destruct (d_active d) as [p|]; [|eapply Q; eauto].
      destruct (de_type de); try (eapply Q; eauto; fail);
        (bstep H x E; destruct x as [d2 t]; eapply Q; [exact H|]; eapply keypress_caps; [|exact E|exact Hd]; reflexivity).
    + destruct (dv_virtual dv); [|eapply Q; eauto]. destruct (de_type de); try (eapply Q; eauto; fail).
      eapply Q; [exact H|]. clear H Q. revert Hd. generalize (combine (seq 0 (length (d_devs d))) (d_devs d)) as l. intros l. revert d.
      induction l as [|[j x] l IH]; cbn [fold_left]; intros d Hd; [exact Hd|]. apply IH. destruct (dv_data x); [|exact Hd].
      eapply sends_caps; [apply sends_emit; exact Logic.I|exact Hd].
Qed.

(* ---- clients ----------------------------------------------------------------------- *)
Lemma named_of x : namedb x = true -> named_key x. Proof. apply namedb_ok. Qed.
Lemma input_char_sends csz cp d d' ok : input_char csz cp d = (d', ok) -> sends d d'.
Proof.
  unfold input_char. intros H.
  destruct (if Nat.eqb csz 1 then _ else None) as [x|] eqn:E.
  - injection H as <- _. destruct (Nat.eqb csz 1); [|discriminate E].
    destruct (parse_key_sequence _) as [[code mods]|] eqn:Ek.
    + apply keyseq_named in Ek. injection E as <-. destruct (negb _); [|now apply sends_tap].
      eapply sends_trans; [apply (sends_emit (VKey K_LEFTSHIFT true)); exact (namedb_ok K_LEFTSHIFT eq_refl)|].
      eapply sends_trans; [apply (sends_tap code); exact Ek|]. apply sends_emit. reflexivity.
    + repeat (match type of E with (if ?b then _ else _) = _ => destruct b end;
        [injection E as <-; apply sends_tap; apply namedb_ok; vm_compute; reflexivity|]).
      discriminate E.
  - destruct (unicode_lookup_index cp) as [i|]; apply pair_equal_spec in H as [<- _]; [|apply sends_refl].
    assert (G : forall l d0, (forall x, In x l -> named_key x) -> sends d0 (fold_left (fun d c => tap c d) l d0)).
    { induction l as [|c l IH]; cbn [fold_left]; intros d0 Hl; [apply sends_refl|].
      eapply sends_trans; [apply sends_tap; apply Hl; now left|]. apply IH. intros; apply Hl; now right. }
    apply G. apply unicode_named.
Qed.
Lemma input_sends f : forall buf timeout d d' ok, input f buf timeout d = Ok (d', ok) -> sends d d'.
Proof.
  induction f as [|f IH]; cbn [input]; intros buf timeout d d' ok H; [discriminate H|].
  bstep H x Ex. destruct x as [csz cp]. destruct csz as [|csz]; [apply Ok_inj in H; injection H as <- _; apply sends_refl|].
  destruct (input_char (S csz) cp d) as [d1 ok1] eqn:E. apply input_char_sends in E.
  destruct ok1; [|apply Ok_inj in H; injection H as <- _; exact E].
  apply IH in H. eapply sends_trans; [exact E|]. eapply sends_trans; [|exact H].
  destruct (timeout =? 0); [apply sends_refl|apply sends_emit; exact Logic.I].
Qed.
Lemma play_sends os : forall d, Forall (o_from named_key anyr) os -> sends d (play os d).
Proof.
  induction os as [|o r IH]; cbn [play]; intros d Ho; [apply sends_refl|].
  assert (H1 := Forall_inv Ho). apply Forall_inv_tail in Ho.
  destruct o as [c s| | |us]; auto; (eapply sends_trans; [|now apply IH]).
  - apply sends_key. intros ->. exact H1.
  - apply sends_emit. exact Logic.I.
Qed.
Lemma listener_sends wr con d d' : add_listener wr con d = Ok d' -> sends d d'.
Proof.
  apply listener_keeps; intros; try (split; auto; fail); [eapply sends_trans; eauto|].
  apply sends_emit. destruct v; auto. contradiction.
Qed.
Lemma eval_sane exp : forall ks ks' ok, eval_all ks exp = Ok (ks', ok) -> Forall sane_kbd ks -> Forall sane_kbd ks'.
Proof.
  induction ks as [|k r IH]; cbn [eval_all]; intros ks' ok H F; [apply Ok_inj in H; apply pair_equal_spec in H as [<- _]; constructor|].
  bstep H x E1. destruct x as [k1 o1]. bstep H x E2. destruct x as [r1 o2].
  apply Ok_inj in H. apply pair_equal_spec in H as [<- _]. inversion F as [|? ? (W & C1 & C2) F']; subst.
  constructor; [|eauto]. assert (E3 := E1). apply eval_cok in E3 as [E3 E4]; auto. split; [|split; [exact E3|now rewrite E4]].
  apply kbd_eval_shape in E1 as [c' ->]. apply from_set_cfg; auto. cbn [k_cfg set_k_cfg] in E3.
  eapply c_from_mono; [| | |exact E3]; auto. intros x Hx. now left.
Qed.
Lemma new_sane c clk : cok c -> sane_kbd (new_keyboard c clk).
Proof.
  intros H. split; [|split; exact H]. apply from_new. eapply c_from_mono; [| | |exact H]; auto. intros x Hx. now left.
Qed.
Lemma load_sane texts clock : forall acc ents, load_files texts clock acc = Ok ents -> Forall sane_kbd acc -> Forall sane_kbd ents.
Proof.
  induction texts as [|t r IH]; cbn [load_files]; intros acc ents H F; [apply Ok_inj in H; now subst|].
  bstep H o E. apply (IH _ _ H). destruct o as [c|]; [|exact F]. constructor; [|exact F]. apply new_sane. eapply parse_cok; eauto.
Qed.
Lemma clear_sends d : sends d (clear_vkbd d).
Proof.
  unfold clear_vkbd. assert (G : forall l d0, (forall i, In i l -> (i < 256)%nat) -> sends d0 (fold_left clear_key l d0)).
  { induction l as [|i l IH]; cbn [fold_left]; intros d0 Hl; [apply sends_refl|].
    eapply sends_trans; [|apply IH; intros; apply Hl; now right]. unfold clear_key. destruct (d_ks d0 _); [|apply sends_refl].
    assert (V : v_ok (VKey (N.of_nat i) false)) by (cbn [v_ok]; specialize (Hl i (or_introl eq_refl)); lia).
    exact (sends_emit _ d0 V). }
  apply G. intros i Hi. apply in_seq in Hi. lia.
Qed.
Lemma reload_caps texts grabs d d' : reload texts grabs d = Ok d' -> caps d -> caps d'.
Proof.
  intros H [A B]. unfold reload in H. bstep H ents E. apply Ok_inj in H. subst d'.
  eapply sends_caps; [apply clear_sends|]. split; [|exact B]. cbn [d_ents set_d_devs set_d_ents].
  eapply load_sane; [exact E|constructor].
Qed.
Lemma client_caps wr con m texts grabs d d' : handle_client wr con m texts grabs d = Ok d' -> caps d -> caps d'.
Proof.
  unfold handle_client. intros H Hd.
  assert (V : forall b d0, caps d0 -> caps (vemit (VReply con b) d0)) by (intros b d0; apply sends_caps, sends_emit; exact Logic.I).
  destruct (4096 <=? _); [apply Ok_inj in H; subst; auto|].
  destruct (1000000 <? _); [apply Ok_inj in H; subst; auto|].
  destruct (i_type m).
  - bstep H x E. destruct x as [ks ok]. apply Ok_inj in H. subst. apply V. destruct Hd as [A B]. split; [|exact B].
    eapply eval_sane; eauto.
  - bstep H x E. destruct x as [d1 ok]. apply Ok_inj in H. subst. apply V. apply input_sends in E. eapply sends_caps; eauto.
  - bstep H x E. destruct x as [mac|]; apply Ok_inj in H; subst; auto. apply V. eapply sends_caps; [|exact Hd].
    apply play_sends. apply mexec_from; [exact PR|exact Pmod|eapply macro_mok; eauto|discriminate].
  - bstep H d1 E. apply Ok_inj in H. subst. apply V. eapply reload_caps; eauto.
  - apply listener_sends in H. eapply sends_caps; eauto.
  - apply Ok_inj in H. subst. auto.
Qed.
Lemma handler_caps fuel wr ev ts d d' t :
  (forall i de, ev = EvDev i de -> de_code de < 256) -> event_handler fuel wr ev ts d = Ok (d', t) -> caps d -> caps d'.
Proof.
  unfold event_handler. intros He H Hd.
  set (t0 := Z.max 0 (d_timeout d - (ts - d_last d))) in *.
  change (caps (set_d_times ts t0 d)) in Hd. set (d1 := set_d_times ts t0 d) in *. clearbody d1.
  assert (T : forall d0 a b, caps d0 -> caps (set_d_times a b d0)) by auto.
  destruct ev as [|i de|i grab|i|con m texts grabs].
  - destruct (d_active d1) as [p|]; [|apply Ok_inj in H; injection H as <- _; auto].
    bstep H x E. destruct x as [d2 t2]. apply Ok_inj in H. injection H as <- _. apply T. eapply run_caps; [|exact E|exact Hd]. reflexivity.
  - bstep H x E. destruct x as [d2 r]. apply Ok_inj in H. injection H as <- _. apply T. eapply device_caps; [|exact E|exact Hd]. eapply He; reflexivity.
  - destruct (nth_error (d_devs d1) i) as [dv|]; [|discriminate H]. cbn [bind] in H. apply Ok_inj in H. injection H as <- _. exact Hd.
  - cbn [bind] in H. apply Ok_inj in H. injection H as <- _. exact Hd.
  - bstep H d2 E. apply Ok_inj in H. injection H as <- _. apply T. eapply client_caps; eauto.
Qed.

(* ---- the loop ---------------------------------------------------------------------- *)
Definition lcaps (l : lstate) : Prop := caps (lp_d l) /\ de_code (lp_de l) < 256.
Lemma call_caps fuel wr ev ts l l' : (forall i de, ev = EvDev i de -> de_code de < 256) ->
  call fuel wr ev ts l = Ok l' -> lcaps l -> lcaps l'.
Proof.
  unfold call. intros He H [A B]. bstep H x E. destruct x as [d t]. apply Ok_inj in H. subst. split; [|exact B].
  eapply handler_caps; eauto.
Qed.
Lemma calls_caps fuel wr : forall evs ts l l', (forall i de, In (EvDev i de) evs -> False) ->
  calls fuel wr evs ts l = Ok l' -> lcaps l -> lcaps l'.
Proof.
  induction evs as [|e r IH]; cbn [calls]; intros ts l l' He H Hl; [apply Ok_inj in H; now subst|].
  bstep H l1 E. eapply IH; [|exact H|].
  - intros i de Hi. eapply He. right. exact Hi.
  - eapply call_caps; [|exact E|exact Hl]. intros i de ->. exfalso. eapply He. now left.
Qed.
Lemma add_caps fuel wr : forall devs ts l l', add_devices fuel wr devs ts l = Ok l' -> lcaps l -> lcaps l'.
Proof.
  induction devs as [|[dv g] r IH]; cbn [add_devices]; intros ts l l' H Hl; [apply Ok_inj in H; now subst|].
  destruct (Nat.ltb _ 64); [|discriminate H]. bstep H l1 E. eapply IH; [exact H|].
  eapply call_caps; [|exact E|exact Hl]. intros i de [=].
Qed.
Lemma read_code_low c k : read_code c = Some k -> k < 256.
Proof.
  unfold read_code. destruct (N.ltb_spec c 256); [intros [= <-]; assumption|].
  destruct (assoc high_codes c) as [x|] eqn:E.
  - intros [= <-]. assert (A : forallb (fun p => snd p <? 256) high_codes = true) by reflexivity.
    rewrite forallb_forall in A. revert E A. generalize high_codes as l. induction l as [|[a b] l IH]; cbn [assoc]; [discriminate|].
    intros E A. destruct (a =? c); [injection E as <-; specialize (A _ (or_introl eq_refl)); now apply N.ltb_lt in A|].
    apply IH; auto. intros; apply A; now right.
  - destruct (_ && _); [|discriminate]. intros [= <-]. apply N.mod_lt. discriminate.
Qed.
Lemma read_event_low ax st r de ret : de_code st < 256 -> device_read_event ax st r = Ok (de, ret) -> de_code de < 256.
Proof.
  intros Hs H. unfold device_read_event in H. destruct r as [e| |].
  - repeat match type of H with
      | (if ?b then _ else _) = _ => destruct b
      | bind ?x _ = _ => let y := fresh in bstep H y E
      | match read_code ?c with _ => _ end = _ => let E := fresh in destruct (read_code c) eqn:E; [apply read_code_low in E|]
      end; apply Ok_inj in H; injection H as <- _; cbn [de_code]; auto; apply N.mod_lt; discriminate.
  - apply Ok_inj in H. injection H as <- _. exact Hs.
  - apply Ok_inj in H. injection H as <- _. exact Hs.
Qed.
Lemma read_device_caps fuel wr i : forall rs ts l l', read_device fuel wr i rs ts l = Ok l' -> lcaps l -> lcaps l'.
Proof.
  induction rs as [|r rs IH]; cbn [read_device]; intros ts l l' H Hl; [apply Ok_inj in H; now subst|].
  destruct (nth_error (d_devs (lp_d l)) i) as [dv|]; [|discriminate H].
  bstep H x E. destruct x as [de ret]. apply read_event_low in E; [|apply Hl].
  destruct ret; cbn [negb] in H; [|apply Ok_inj in H; subst; split; [apply Hl|exact E]].
  destruct (de_type de).
  6:{ bstep H l2 E2. apply Ok_inj in H. subst. apply call_caps in E2; [exact E2|intros ? ? [=]|split; [apply Hl|exact E]]. }
  all: cbv zeta in H; destruct (panic_check _ _ _) as [s die]; destruct die;
    [apply Ok_inj in H; subst; split; [apply Hl|exact E]|];
    bstep H l2 E2; eapply IH; [exact H|]; eapply call_caps; [|exact E2|split; [apply Hl|exact E]]; intros ? ? [= _ <-]; exact E.
Qed.
Lemma read_devices_caps fuel wr reads : forall is ts l l', read_devices fuel wr reads is ts l = Ok l' -> lcaps l -> lcaps l'.
Proof.
  induction is as [|i r IH]; cbn [read_devices]; intros ts l l' H Hl; [apply Ok_inj in H; now subst|].
  destruct (lp_dead l); [apply Ok_inj in H; now subst|]. bstep H l1 E. apply read_device_caps in E; eauto.
Qed.
Theorem runs_caps fuel wr l : runs fuel wr l -> lcaps l.
Proof.
  induction 1 as [texts devs grabs ts l Hf H|r l l' Hr IH Hf H].
  - unfold start in H. bstep H d Er. bstep H l1 E. apply Ok_inj in H. subst.
    apply calls_caps in E; [exact E| |].
    + intros i de Hi. apply in_map_iff in Hi as [x [[=] _]].
    + split; [|reflexivity]. cbn [lp_d]. eapply reload_caps in Er; [exact Er|]. split; constructor.
  - apply round_cases in H as [[-> _]|(_ & l1 & l2 & E1 & E2 & H)]; [exact IH|].
    assert (P1 : lcaps l1).
    { destruct (andb _ _); [eapply call_caps; [|exact E1|exact IH]; intros ? ? [=]|apply Ok_inj in E1; subst; exact IH]. }
    apply read_devices_caps in E2; [|exact P1].
    destruct H as [[_ ->]|(_ & l3 & l4 & E3 & E4 & ->)]; [exact E2|].
    apply calls_caps in E3; [| |exact E2].
    + apply add_caps in E4; auto.
    + intros i de Hi. apply in_map_iff in Hi as [[[[? ?] ?] ?] [[=] _]].
Qed.
