(* The handler and the loop of the daemon come to an end (for C68). *)
From Coq Require Import String ZArith Lia.
From Verif Require Import Base Lib Types Str Keys Kbd MacroParse MacroExec Config ParseFrame ParseWf WfHist Hist SpecTerm PropTerm DeferProofs TimelyProofs SpecHalt
  Match Device Daemon SpecDaemon DaemonProofs EntryProofs MildProofs SafeProofs.
Local Open Scope list_scope.
Local Open Scope N_scope.
Local Notation length := List.length.

(* [settles P F]: F comes to an end, with a result in P *)
Definition settles {A} (P : A -> Prop) (F : nat -> res A) : Prop :=
  exists r, comes_to F r /\ forall a, r = Ok a -> P a.
Lemma settles_const {A} (P : A -> Prop) r : r <> NoFuel -> (forall a, r = Ok a -> P a) -> settles P (fun _ => r).
Proof. intros H1 H2. exists r. split; [split; [exact H1|split; [exists 0%nat|]; auto]|exact H2]. Qed.
Lemma settles_ok {A} (P : A -> Prop) a : P a -> settles P (fun _ => Ok a).
Proof. intros H. apply settles_const; [discriminate|]. intros b E. apply Ok_inj in E. now subst. Qed.
Lemma settles_bind {A B} (P : A -> Prop) (Q : B -> Prop) F (G : nat -> A -> res B) :
  settles P F -> (forall a, P a -> settles Q (fun f => G f a)) -> settles Q (fun f => bind (F f) (G f)).
Proof.
  intros (r & [R1 [[n R2] R4]] & R3) H. destruct r as [a|x| |]; [|exists (Crash x)|exists UB|contradiction].
  - destruct (H a (R3 a eq_refl)) as (r & [S1 [[n' S2] S4]] & S3). exists r. split; [|exact S3]. split; [exact S1|]. split.
    + exists (Nat.max n n'). intros f Hf. rewrite R2 by lia. cbn [bind]. apply S2. lia.
    + intros f. destruct (R4 f) as [-> | ->]; cbn [bind]; auto.
  - split; [split; [discriminate|]|discriminate]. split; [exists n; intros f Hf; now rewrite R2|]. intros f. destruct (R4 f) as [-> | ->]; auto.
  - split; [split; [discriminate|]|discriminate]. split; [exists n; intros f Hf; now rewrite R2|]. intros f. destruct (R4 f) as [-> | ->]; auto.
Qed.
Lemma settles_imp {A} (P Q : A -> Prop) F : settles P F -> (forall a, P a -> Q a) -> settles Q F.
Proof. intros (r & R & S) H. exists r. split; auto. Qed.

(* the configurations of the keyboards are well formed *)
Definition sound_k (k : kbd) : Prop := inv (k_cfg k) /\ inv (k_orig k).
Definition sound_d (d : dstate) : Prop := Forall sound_k (d_ents d).

Lemma deliver_nf wr p c : forall os d, deliver_all wr p c os d <> NoFuel.
Proof.
  induction os as [|o os IH]; intros d; cbn [deliver_all]; [discriminate|]. apply bind_nf; [|intros a _; apply IH].
  destruct o; cbn [deliver]; try discriminate. unfold on_layer_change. destruct (d_lst _); [discriminate|].
  apply bind_nf; [|discriminate]. unfold buf_text. destruct (Nat.ltb _ _); [discriminate|]. destruct (Nat.eqb _ _); discriminate.
Qed.
Lemma run_settles wr p ev d : sound_d d -> settles (fun r => sound_d (fst r)) (fun f => run_kbd f wr p ev d).
Proof.
  intros Hd. unfold run_kbd. apply (settles_bind (fun k => In k (d_ents d))).
  { apply settles_const; [unfold deref; destruct (Nat.eqb _ _); [destruct (nth_error _ _)|]; discriminate|]. intros k. apply deref_in. }
  intros k Hk. unfold sound_d in Hd. rewrite Forall_forall in Hd. destruct (Hd k Hk) as [C O].
  apply (settles_bind (fun r => sound_k (fst r))).
  - destruct (C03_any_state (set_k_clock (d_clock d) k) [ev] (proj1 C)) as [r R]. exists r. split.
    { pose proof R as [R1 R2]. split; [exact R1|]. split; [exact R2|]. intros f.
      destruct (kbd_process_events f (set_k_clock (d_clock d) k) [ev]) eqn:E; [right|right|right|now left];
        (eapply outcome_unique; [eapply outcome_of; [exact E|discriminate]|exact R]). }
    intros [k1 t] ->. destruct R as [_ [n R]]. specialize (R n (le_n n)). apply events_orig in R as [R1 R2]. split; cbn [fst].
    + rewrite R1. exact C.
    + rewrite R2. exact O.
  - intros [k1 t] S. cbn [fst] in S. cbv zeta. set (os := rev _). apply settles_const.
    + apply bind_nf; [apply deliver_nf|discriminate].
    + intros [d' t'] E. destruct (deliver_all _ _ _ _ _) as [d1| | |] eqn:Ed; cbn [bind] in E; try discriminate E.
      apply Ok_inj, pair_equal_spec in E as [<- _]. apply deliver_ents in Ed as (Ed & _).
      unfold sound_d. cbn [fst store d_ents set_d_ents]. apply Forall_upd; [exact S|]. rewrite Ed. cbn [d_ents set_d_clock].
      apply Forall_forall. exact Hd.
Qed.
Lemma keypress_settles wr p code ts d : sound_d d -> settles (fun r => sound_d (fst r)) (fun f => process_keypress f wr p code ts d).
Proof.
  intros Hd. unfold process_keypress. eapply settles_bind; [apply run_settles; exact Hd|]. intros [d1 t] H1. apply run_settles. exact H1.
Qed.
Lemma keypresses_settle wr p code ts n : forall t d, sound_d d -> settles (fun r => sound_d (fst r)) (fun f => keypresses f wr p code ts n t d).
Proof.
  induction n as [|n IH]; intros t d Hd; cbn [keypresses]; [now apply settles_ok|].
  eapply settles_bind; [apply keypress_settles; exact Hd|]. intros [d1 t1] H1. apply IH. exact H1.
Qed.

(* ---- clients ---------------------------------------------------------------------------------------- *)
Lemma eval_sound exp : forall ks, Forall sound_k ks -> eval_all ks exp <> NoFuel /\
  forall r, eval_all ks exp = Ok r -> Forall sound_k (fst r).
Proof.
  induction ks as [|k ks IH]; intros F; cbn [eval_all].
  { split; [discriminate|]. intros r E. apply Ok_inj in E. subst r. constructor. }
  inversion F as [|? ? [F1 F2] F3]; subst. destruct (IH F3) as [I1 I2]. split.
  - apply bind_nf.
    + unfold kbd_eval. destruct (str_eqb _ _); [discriminate|]. apply bind_nf; [apply add_entry_nf|]. now intros [c ok] _.
    + intros [k1 ok] _. apply bind_nf; [exact I1|]. now intros [r1 ok1] _.
  - intros r E. destruct (kbd_eval k exp) as [[k1 ok]| | |] eqn:Ek; cbn [bind] in E; try discriminate E.
    destruct (eval_all ks exp) as [[r1 ok1]| | |]; cbn [bind] in E; try discriminate E. apply Ok_inj in E. subst r. cbn [fst].
    constructor; [|exact (I2 _ eq_refl)]. unfold kbd_eval in Ek. destruct (str_eqb _ _).
    + apply Ok_inj, pair_equal_spec in Ek as [<- _]. split; exact F2.
    + destruct (config_add_entry (k_cfg k) exp) as [[c ok']| | |] eqn:Ea; cbn [bind] in Ek; try discriminate Ek.
      apply Ok_inj, pair_equal_spec in Ek as [<- _]. split; [|exact F2]. cbn [k_cfg set_k_cfg].
      eapply config_add_entry_ok; [exact F1|exact Ea].
Qed.
Lemma input_nf : forall f buf tmo d, (length buf < f)%nat -> input f buf tmo d <> NoFuel.
Proof.
  induction f as [|f IH]; intros buf tmo d H; [lia|]. cbn [input]. destruct buf as [|b buf].
  { discriminate. }
  apply bind_nf; [apply utf8_read_nf|]. intros [[|csz] cp] _; [discriminate|]. destruct (input_char _ _ _) as [d1 ok].
  destruct ok; [|discriminate]. apply IH. rewrite skipn_length. cbn [length] in *. lia.
Qed.
Lemma text_nf : forall f s m, parse_text f s m <> NoFuel.
Proof.
  induction f as [|f IH]; intros s m; cbn [parse_text]; [discriminate|]. apply bind_nf; [apply utf8_read_nf|]. intros [[|sz] cp] _; [discriminate|].
  match goal with |- match ?n with None => _ | Some _ => _ end <> _ => destruct n end; [apply IH|discriminate].
Qed.
Lemma macro_nf s : macro_parse s <> NoFuel.
Proof.
  unfold macro_parse. generalize (tokens 32 s), ([] : macro). induction l as [|t l IH]; intros m; cbn [parse_tokens]; [discriminate|].
  apply bind_nf; [|intros [m'|] _; [apply IH|discriminate]]. unfold parse_token. destruct (parse_key_sequence t) as [[code mods]|]; [discriminate|].
  destruct (has_char 43 t); [discriminate|]. destruct (is_timeval t); [discriminate|]. apply text_nf.
Qed.
Lemma load_sound texts clk : forall acc, Forall sound_k acc -> load_files texts clk acc <> NoFuel /\
  forall r, load_files texts clk acc = Ok r -> Forall sound_k r.
Proof.
  induction texts as [|t r IH]; intros acc F; cbn [load_files].
  { split; [discriminate|]. intros x E. apply Ok_inj in E. now subst. }
  pose proof (ParseTotal.parse_terminates t) as N0. pose proof (config_parse_inv t) as N1. revert N0 N1.
  generalize (config_parse t). intros [[c|]|x| |] N0 N1; cbn [bind].
  - apply IH. constructor; [|exact F]. specialize (N1 c eq_refl). split; exact N1.
  - exact (IH acc F).
  - split; discriminate.
  - split; discriminate.
  - contradiction.
Qed.
Lemma reload_settles texts grabs d : settles sound_d (fun _ => reload texts grabs d).
Proof.
  unfold reload. destruct (load_sound texts (d_clock d) [] (Forall_nil _)) as [L1 L2]. apply settles_const.
  - apply bind_nf; [exact L1|discriminate].
  - intros d' E. destruct (load_files _ _ _) as [ents| | |]; cbn [bind] in E; try discriminate E. apply Ok_inj in E. subst d'.
    unfold sound_d. match goal with |- Forall _ (d_ents (clear_vkbd ?x)) => destruct (clear_ents x) as (-> & _) end.
    cbn [d_ents set_d_devs set_d_ents]. apply L2. reflexivity.
Qed.

Lemma dput_ents c s d : d_ents (dsend_key c s d) = d_ents d.
Proof. apply dsend_ents. Qed.
Lemma play_ents os : forall d, d_ents (play os d) = d_ents d.
Proof.
  induction os as [|o os IH]; intros d; [reflexivity|]. destruct o; cbn [play]; rewrite IH; try reflexivity. apply dput_ents.
Qed.
Lemma taps_ents l : forall d, d_ents (fold_left (fun d c => tap c d) l d) = d_ents d.
Proof. induction l as [|c l IH]; intros d; cbn [fold_left]; [reflexivity|]. rewrite IH. reflexivity. Qed.
Lemma input_char_ents csz cp d d' ok : input_char csz cp d = (d', ok) -> d_ents d' = d_ents d.
Proof.
  unfold input_char. cbv zeta. destruct (Nat.eqb csz 1); [destruct (parse_key_sequence _) as [[code mods]|]|].
  - intros H. apply pair_equal_spec in H as [<- _]. destruct (negb _); reflexivity.
  - destruct (cp =? 32); [intros H; apply pair_equal_spec in H as [<- _]; reflexivity|].
    destruct (cp =? 10); [intros H; apply pair_equal_spec in H as [<- _]; reflexivity|].
    destruct (cp =? 9); [intros H; apply pair_equal_spec in H as [<- _]; reflexivity|].
    destruct (unicode_lookup_index cp); intros H; apply pair_equal_spec in H as [<- _]; [apply taps_ents|reflexivity].
  - destruct (unicode_lookup_index cp); intros H; apply pair_equal_spec in H as [<- _]; [apply taps_ents|reflexivity].
Qed.
Lemma input_ents : forall f buf tmo d d' ok, input f buf tmo d = Ok (d', ok) -> d_ents d' = d_ents d.
Proof.
  induction f as [|f IH]; intros buf tmo d d' ok H; cbn [input] in H; [discriminate H|].
  destruct (utf8_read_char buf) as [[csz cp]| | |]; cbn [bind] in H; try discriminate H.
  destruct csz as [|csz]; [apply Ok_inj, pair_equal_spec in H as [<- _]; reflexivity|].
  destruct (input_char (S csz) cp d) as [d1 ok1] eqn:E. apply input_char_ents in E. rewrite <- E. destruct ok1.
  - apply IH in H. rewrite H. destruct (tmo =? 0); reflexivity.
  - apply Ok_inj, pair_equal_spec in H as [<- _]. reflexivity.
Qed.
Lemma layers_ents wr con k is : forall d d' ok, send_layers wr con k is d = (d', ok) -> d_ents d' = d_ents d.
Proof.
  induction is as [|i is IH]; intros d d' ok H; cbn [send_layers] in H; [apply pair_equal_spec in H as [<- _]; reflexivity|].
  destruct (andb _ _); [|now apply IH in H]. unfold write_msg in H. destruct (wr _); [apply IH in H; exact H|]. apply pair_equal_spec in H as [<- _]. reflexivity.
Qed.
Lemma client_settles wr con m texts grabs d : sound_d d -> settles sound_d (fun _ => handle_client wr con m texts grabs d).
Proof.
  intros Hd. unfold handle_client. destruct (4096 <=? i_sz m); [now apply settles_ok|]. cbv zeta. destruct (1000000 <? i_timeout m); [now apply settles_ok|].
  set (data := upd _ _ _). clearbody data. destruct (i_type m).
  - destruct (eval_sound (cstr data) (d_ents d) Hd) as [E1 E2]. apply settles_const.
    + apply bind_nf; [exact E1|]. now intros [ks ok] _.
    + intros d' E. destruct (eval_all _ _) as [[ks ok]| | |]; cbn [bind] in E; try discriminate E. apply Ok_inj in E. subst d'. exact (E2 _ eq_refl).
  - apply settles_const.
    + apply bind_nf; [apply input_nf; lia|]. now intros [d1 ok] _.
    + intros d' E. destruct (input _ _ _ _) as [[d1 ok]| | |] eqn:Ei; cbn [bind] in E; try discriminate E. apply Ok_inj in E. subst d'.
      apply input_ents in Ei. unfold sound_d. cbn [vemit d_ents]. change (Forall sound_k (d_ents d1)). rewrite Ei. exact Hd.
  - apply settles_const.
    + apply bind_nf; [apply macro_nf|]. now intros [mac|] _.
    + intros d' E. destruct (macro_parse _) as [[mac|]| | |]; cbn [bind] in E; try discriminate E; apply Ok_inj in E; subst d'; [|exact Hd].
      unfold sound_d. match goal with |- Forall _ (d_ents (vemit _ ?x)) => change (Forall sound_k (d_ents x)) end.
      match goal with |- Forall _ (d_ents (play ?os d)) => rewrite (play_ents os d) end. exact Hd.
  - eapply (settles_bind sound_d); [apply reload_settles|]. intros d1 H1. now apply settles_ok.
  - unfold add_listener. destruct (Nat.eqb _ _); [now apply settles_ok|]. destruct (d_active d) as [p|]; [|now apply settles_ok].
    apply (settles_bind (fun _ => True)); [apply settles_const; [|auto]; unfold deref; destruct (Nat.eqb _ _); [destruct (nth_error _ _)|]; discriminate|].
    intros k _. destruct (write_msg _ _ _ _) as [d1 o1] eqn:Ew. destruct (send_layers _ _ _ _ _) as [d2 ok] eqn:Es.
    apply settles_ok. apply layers_ents in Es as G. assert (G1 : d_ents d1 = d_ents d).
    { unfold write_msg in Ew. apply pair_equal_spec in Ew as [<- _]. reflexivity. }
    rewrite G1 in G. unfold sound_d. destruct ok; change (Forall sound_k (d_ents d2)); rewrite G; exact Hd.
  - now apply settles_ok.
Qed.
Lemma device_settles wr i de ts d : sound_d d -> settles (fun r => sound_d (fst r)) (fun f => device_event f wr i de ts d).
Proof.
  intros Hd. unfold device_event. destruct (nth_error (d_devs d) i) as [dv|]; [|apply settles_const; discriminate].
  destruct (dv_data dv) as [p|].
  - cbv zeta. set (d1 := set_d_active (Some p) d). assert (H1 : sound_d d1) by exact Hd. clearbody d1. clear d Hd. destruct (de_type de).
    + eapply settles_bind; [now apply run_settles|]. intros [d2 t] H2. now apply settles_ok.
    + now apply settles_ok.
    + apply settles_const.
      * apply bind_nf; [unfold deref; destruct (Nat.eqb _ _); [destruct (nth_error _ _)|]; discriminate|]. intros k _.
        destruct (s_active (k_scroll k)); [|discriminate]. apply bind_nf; [|now intros [s vs] _]. apply (proj2 (scroll_ub _ _ _) CUtf8).
      * intros [d' r] E. destruct (deref d1 p) as [k| | |] eqn:Ek; cbn [bind] in E; try discriminate E.
        destruct (s_active (k_scroll k)); [|apply Ok_inj, pair_equal_spec in E as [<- _]; exact H1].
        destruct (scroll_move _ _ _) as [[s vs]| | |]; cbn [bind] in E; try discriminate E. apply Ok_inj, pair_equal_spec in E as [<- _]. cbn [fst].
        assert (G : forall vs x, sound_d x -> sound_d (fold_left (fun d v => vemit v d) vs x)).
        { clear. induction vs as [|v vs IH]; cbn [fold_left]; intros x H; [exact H|]. apply IH. exact H. }
        apply G. unfold sound_d. cbn [store d_ents set_d_ents]. apply Forall_upd; [|exact H1]. apply deref_in in Ek.
        unfold sound_d in H1. rewrite Forall_forall in H1. exact (H1 _ Ek).
    + now apply settles_ok.
    + eapply (settles_bind (fun r => sound_d (fst r))); [destruct (Z.eqb _ _); [now apply settles_ok|now apply keypresses_settle]|]. intros [d2 t2] H2.
      eapply (settles_bind (fun r => sound_d (fst r))); [destruct (Z.eqb _ _); [now apply settles_ok|now apply keypresses_settle]|]. intros [d3 t3] H3.
      now apply settles_ok.
    + now apply settles_ok.
  - destruct (andb _ _).
    + destruct (d_active d) as [p|]; [|now apply settles_ok].
      destruct (de_type de); try (now apply settles_ok); (eapply settles_bind; [now apply keypress_settles|]; intros [d2 t] H2; now apply settles_ok).
    + destruct (dv_virtual dv); [|now apply settles_ok]. destruct (de_type de); try (now apply settles_ok). apply settles_ok. cbn [fst].
      set (l := combine _ _). clearbody l. revert d Hd. induction l as [|[j x] l IH]; intros d Hd; cbn [fold_left]; [exact Hd|]. apply IH.
      destruct (dv_data x); exact Hd.
Qed.
Lemma handler_settles wr ev ts d : sound_d d -> settles (fun r => sound_d (fst r)) (fun f => event_handler f wr ev ts d).
Proof.
  intros Hd. unfold event_handler. cbv zeta. set (t0 := Z.max 0 _). set (d1 := set_d_times ts t0 d). assert (H1 : sound_d d1) by exact Hd.
  clearbody d1 t0. clear d Hd. destruct ev as [|i de|i g|i|con m texts grabs].
  - destruct (d_active d1) as [p|]; [|now apply settles_ok]. eapply settles_bind; [now apply run_settles|]. intros [d2 t] H2. now apply settles_ok.
  - eapply settles_bind; [now apply device_settles|]. intros [d2 t] H2. now apply settles_ok.
  - destruct (nth_error _ _); [|apply settles_const; discriminate]. now apply settles_ok.
  - now apply settles_ok.
  - eapply (settles_bind sound_d); [now apply client_settles|]. intros d2 H2. now apply settles_ok.
Qed.

(* ---- the loop ---------------------------------------------------------------------------------------------- *)
Definition sound_l (l : lstate) : Prop := sound_d (lp_d l).
Lemma call_settles wr ev ts l : sound_l l -> settles sound_l (fun f => call f wr ev ts l).
Proof. intros H. unfold call. eapply settles_bind; [now apply handler_settles|]. intros [d t] H1. now apply settles_ok. Qed.
Lemma calls_settle wr evs ts : forall l, sound_l l -> settles sound_l (fun f => calls f wr evs ts l).
Proof.
  induction evs as [|e r IH]; intros l H; cbn [calls]; [now apply settles_ok|]. eapply settles_bind; [now apply call_settles|]. intros l1 H1. now apply IH.
Qed.
Lemma read_nf ax st r : device_read_event ax st r <> NoFuel.
Proof.
  destruct r as [e| |]; cbn [device_read_event]; try discriminate. unfold abs_scale.
  repeat (cbn [bind]; match goal with |- context [if ?b then _ else _] => destruct b end); try discriminate;
    destruct (read_code _); discriminate.
Qed.
Lemma read_device_settles wr i ts rs : forall l, sound_l l -> settles sound_l (fun f => read_device f wr i rs ts l).
Proof.
  induction rs as [|r rs IH]; intros l H; cbn [read_device]; [now apply settles_ok|].
  destruct (nth_error _ _) as [dv|]; [|apply settles_const; discriminate].
  apply (settles_bind (fun _ => True)); [apply settles_const; [apply read_nf|auto]|]. intros [de ret] _. cbv zeta.
  set (l1 := mkL (set_d_devs _ _) _ _ _ _ _ _). assert (H1 : sound_l l1) by exact H. clearbody l1.
  destruct ret; cbn [negb]; [|now apply settles_ok].
  destruct (de_type de).
  6:{ eapply settles_bind; [now apply call_settles|]. intros l2 H2. now apply settles_ok. }
  all: destruct (panic_check _ _ _) as [s die]; destruct die; [now apply settles_ok|];
    (eapply settles_bind; [apply call_settles; exact H1|]; intros l3 H3; now apply IH).
Qed.
Lemma read_devices_settle wr reads ts is : forall l, sound_l l -> settles sound_l (fun f => read_devices f wr reads is ts l).
Proof.
  induction is as [|i is IH]; intros l H; cbn [read_devices]; [now apply settles_ok|]. destruct (lp_dead l); [now apply settles_ok|].
  eapply settles_bind; [now apply read_device_settles|]. intros l1 H1. now apply IH.
Qed.
Lemma adds_settle wr ts devs : forall l, sound_l l -> settles sound_l (fun f => add_devices f wr devs ts l).
Proof.
  induction devs as [|[dv g] devs IH]; intros l H; cbn [add_devices]; [now apply settles_ok|]. cbv zeta.
  destruct (Nat.ltb _ _); [|apply settles_const; discriminate]. eapply settles_bind; [apply call_settles; exact H|]. intros l1 H1. now apply IH.
Qed.
Lemma round_settles wr r l : sound_l l -> settles sound_l (fun f => loop_round f wr r l).
Proof.
  intros H. unfold loop_round. destruct (lp_dead l); [now apply settles_ok|]. cbv zeta.
  eapply (settles_bind sound_l); [destruct (andb _ _); [now apply call_settles|now apply settles_ok]|]. intros l1 H1.
  eapply settles_bind; [now apply read_devices_settle|]. intros l2 H2. destruct (lp_dead l2); [now apply settles_ok|].
  eapply settles_bind; [now apply calls_settle|]. intros l3 H3. eapply settles_bind; [now apply adds_settle|]. intros l4 H4. now apply settles_ok.
Qed.
Lemma loop_settles wr rs : forall l, sound_l l -> settles sound_l (fun f => loop f wr rs l).
Proof.
  induction rs as [|r rs IH]; intros l H; cbn [loop]; [now apply settles_ok|]. eapply settles_bind; [now apply round_settles|]. intros l1 H1. now apply IH.
Qed.
Lemma start_settles wr texts devs grabs ts : settles sound_l (fun f => start f wr texts devs grabs ts).
Proof.
  unfold start. eapply (settles_bind sound_d); [apply reload_settles|]. intros d H. eapply settles_bind; [apply calls_settle; exact H|]. intros l1 H1.
  now apply settles_ok.
Qed.
