(* When the daemon is undefined and when it aborts: the proofs behind C67. *)
From Coq Require Import String ZArith Lia.
From Verif Require Import Base Lib Types Str Keys MacroParse Kbd Config SpecWf Wf WfEvents SpecText SpecExpr SpecConfig SpecHist Match Outside Steps
  Engine ParseWf WfHist ParseFrame ConfProofs PropConfig Device Daemon SpecDaemon DaemonProofs ListenProofs EntryProofs TimelyProofs BoundProofs MildProofs SpecSafe.
Local Open Scope list_scope.
Local Open Scope N_scope.
Local Notation length := List.length.

(* ---- names ------------------------------------------------------------------------------------ *)
Definition short (c : config) : Prop := forall i, (length (lname c i) <= 64)%nat.
Lemma parts_short d s ps : parts d s ps -> forall p, In p ps -> (length p <= length s)%nat.
Proof.
  induction 1; intros p Hp; try destruct Hp as [<-|Hp]; try contradiction; rewrite ?app_length; cbn [length]; rewrite ?app_length; cbn [length];
    try (specialize (IHparts _ Hp)); try lia.
Qed.
Lemma layers_short hs secs hs' : layers_after hs secs hs' -> Forall (fun h => (length (h_name h) <= 64)%nat) hs ->
  Forall (fun h => (length (h_name h) <= 64)%nat) hs'.
Proof.
  induction 1 as [hs|hs n es secs hs' Hs H IH|hs n es secs hs' h Hs Hl Hn Hm Hd H IH|hs n es secs hs' Hs Ho H IH]; intros F; auto.
  apply IH. apply Forall_app. split; [exact F|]. constructor; [|constructor].
  destruct Hd as [s n r t m Hp _ _|s n ns is Hp _ _ _]; cbn [h_name]; apply parts_short with (p := n) in Hp; try (left; reflexivity); lia.
Qed.
Lemma parse_short text c : config_parse text = Ok (Some c) -> short c.
Proof.
  intros H. destruct (parse_from _ _ H) as (secs & c1 & S & _). pose proof (C60_layers _ _ _ H S) as L.
  apply layers_short in L; [|repeat constructor; vm_compute; lia].
  intros i. unfold lname. destruct (nth_in_or_default i (c_layers c) zero_layer) as [E|E].
  - rewrite Forall_forall in L. apply (L (head_of (nth i (c_layers c) zero_layer))). now apply in_map.
  - rewrite E. cbn. lia.
Qed.
Lemma names_short c c' : same_names c c' -> short c -> short c'.
Proof. intros [_ H] S i. rewrite (proj1 (H i)). apply S. Qed.

(* ---- the keyboards ------------------------------------------------------------------------------ *)
Definition counters (k : kbd) : Prop := (Z.abs (s_x (k_scroll k)) < 32768 /\ Z.abs (s_y (k_scroll k)) < 32768)%Z.
Record fit (clk : Z) (k : kbd) : Prop := {
  f_clock : (k_clock k <= clk)%Z; f_wf : wfk k; f_cfg : inv (k_cfg k); f_orig : inv (k_orig k);
  f_kinds : same_kinds (k_cfg k) (k_orig k); f_short : short (k_cfg k); f_short0 : short (k_orig k); f_motion : counters k }.
Definition fit_all (d : dstate) : Prop := (1 <= d_clock d)%Z /\ Forall (fit (d_clock d)) (d_ents d).
Definition FR (d d' : dstate) : Prop := fit_all d -> fit_all d'.
Lemma fit_later a b k : (a <= b)%Z -> fit a k -> fit b k.
Proof. intros H [A B C D E F G I]. constructor; auto. lia. Qed.
Lemma fit_same d d' : d_ents d' = d_ents d -> d_clock d' = d_clock d -> FR d d'.
Proof. unfold FR, fit_all. now intros -> ->. Qed.
Lemma fit_outside clk k k' : outside k k' -> fit clk k -> (k_clock k' <= clk)%Z -> counters k' -> fit clk k'.
Proof.
  intros H [A B C D E F G I] T M. constructor; auto; destruct H; cbn [k_cfg k_orig set_k_clock set_k_scroll]; auto; destruct B; constructor; assumption.
Qed.
Lemma wprim_motion k k' : wprim k k' -> motion k' = motion k.
Proof.
  destruct 1 as [k l s o H|k k' H1 H2 H3 H4 H5 H6 H7|k code i k' H E|k i k' H E|k i l H H1 H2|k idx H]; try reflexivity; auto.
  - unfold activate_layer in E. bauto E; reflexivity.
  - unfold deactivate_layer in E. bauto E; reflexivity.
  - unfold to_layout. destruct (fold_drop_shape (seq 1 (nlayers k - 1)) k) as [ls ->]. destruct (Nat.eqb idx 0); reflexivity.
Qed.
Lemma events_fit fuel k evs : wfk k ->
  sf (fun r => wfk (fst r) /\ motion (fst r) = motion k /\ k_cfg (fst r) = k_cfg k /\ k_orig (fst r) = k_orig k) (kbd_process_events fuel k evs).
Proof.
  intros W.
  pose proof (process_events_wfJ (fun k0 => motion k0 = motion k /\ k_cfg k0 = k_cfg k /\ k_orig k0 = k_orig k)) as G.
  eapply safe_weak; [apply G; [|split; [exact W|auto]]|].
  - intros a b Hp _ (A & B & C). pose proof (wprim_motion _ _ Hp). destruct (wprim_cfg _ _ Hp). repeat split; congruence.
  - intros [k1 t]. cbn [fst]. unfold wfJ. tauto.
Qed.
Lemma fit_clock d k : fit_all d -> In k (d_ents d) -> fit (d_clock d) (set_k_clock (d_clock d) k).
Proof.
  intros [_ F] Hk. rewrite Forall_forall in F. pose proof (F _ Hk) as X.
  apply (fit_outside _ k); auto; [apply out_clock, X|cbn [k_clock set_k_clock]; lia|apply X].
Qed.
Lemma fit_run fuel wr p ev d d' t : run_kbd fuel wr p ev d = Ok (d', t) -> FR d d'.
Proof.
  intros H Hf. apply run_inv in H as (k & k1 & d1 & E1 & E2 & E3 & ->).
  apply deliver_ents in E3 as (A & _ & B & _). cbn [d_ents d_clock set_d_clock] in A, B. apply deref_in in E1.
  pose proof (fit_clock _ _ Hf E1) as X. destruct Hf as [C F].
  assert (M : (d_clock d <= k_clock k1)%Z).
  { apply kbd_process_events_steps in E2. apply steps_clock in E2. exact E2. }
  pose proof (events_fit fuel _ [ev] (f_wf _ _ X)) as G. rewrite E2 in G. cbn [sf safe fst] in G. destruct G as (G1 & G2 & G3 & G4).
  split; cbn [store d_clock d_ents set_d_ents]; rewrite B; [lia|]. rewrite A. apply Forall_upd.
  - destruct X as [X1 X2 X3 X4 X5 X6 X7 X8]. constructor; rewrite ?G3, ?G4; auto; [lia|].
    unfold motion in G2. injection G2 as G5 G6. unfold counters in *. now rewrite G5, G6.
  - eapply Forall_impl; [|exact F]. intros x. now apply fit_later.
Qed.
Lemma fit_new text c clk : config_parse text = Ok (Some c) -> fit clk (new_keyboard c clk).
Proof.
  intros H. pose proof (config_parse_inv _ _ H) as I. pose proof (parse_short _ _ H) as S.
  constructor; cbn [k_clock k_cfg k_orig new_keyboard]; auto; [lia|now apply wfk_new|split; auto|split; cbn; lia].
Qed.
Lemma load_fit texts clk : forall acc ents, load_files texts clk acc = Ok ents -> Forall (fit clk) acc -> Forall (fit clk) ents.
Proof.
  induction texts as [|t r IH]; cbn [load_files]; intros acc ents H F; [apply Ok_inj in H; now subst|].
  destruct (config_parse t) as [o| | |] eqn:E; cbn [bind] in H; try discriminate H.
  apply (IH _ _ H). destruct o as [c|]; [|exact F]. constructor; [|exact F]. eapply fit_new; eauto.
Qed.
Lemma reload_fit texts grabs d d' : reload texts grabs d = Ok d' -> FR d d'.
Proof.
  intros H [C F]. apply reload_inv in H as (ents & E & ->).
  destruct (clear_ents (reload_base texts grabs d ents)) as (A & _ & B & _).
  unfold fit_all. rewrite A, B. cbn. split; [exact C|]. eapply load_fit; eauto.
Qed.
Lemma eval_fit exp clk k k' ok : kbd_eval k exp = Ok (k', ok) -> ~ striking k -> fit clk k -> fit clk k'.
Proof.
  intros H Hs [A B C D E F G I]. unfold kbd_eval in H. destruct (str_eqb _ _).
  - apply Ok_inj, pair_equal_spec in H as [<- _]. constructor; cbn [k_cfg k_orig k_clock set_k_cfg]; auto;
      [apply wfk_set_cfg; auto; apply D|split; auto].
  - destruct (config_add_entry _ _) as [[c1 ok1]| | |] eqn:Ec; cbn [bind] in H; try discriminate H.
    apply Ok_inj, pair_equal_spec in H as [<- _].
    pose proof (config_add_entry_ok _ _ _ _ C Ec) as I3. pose proof (config_add_entry_kinds _ _ _ _ C Ec) as K3.
    constructor; cbn [k_cfg k_orig k_clock set_k_cfg]; auto; [apply wfk_set_cfg; auto; apply I3| |eapply names_short; [|exact F]; eapply add_entry_names; eauto].
    destruct E as [Ka Kb], K3 as [K3a K3b]. split; [congruence|]. intros i. now rewrite Kb, K3b.
Qed.
Lemma eval_all_fit exp clk : forall ks ks' ok, eval_all ks exp = Ok (ks', ok) -> ~ Exists striking ks -> Forall (fit clk) ks -> Forall (fit clk) ks'.
Proof.
  induction ks as [|k r IH]; cbn [eval_all]; intros ks' ok H Hs F; [apply Ok_inj, pair_equal_spec in H as [<- _]; constructor|].
  destruct (kbd_eval k exp) as [[k1 o1]| | |] eqn:E1; cbn [bind] in H; try discriminate H.
  destruct (eval_all r exp) as [[r1 o2]| | |] eqn:E2; cbn [bind] in H; try discriminate H.
  apply Ok_inj, pair_equal_spec in H as [<- _]. inversion F as [|? ? F1 F2]; subst. rewrite Exists_cons in Hs.
  constructor; [|eauto]. eapply eval_fit; eauto.
Qed.
Lemma scroll_small s x y s' vs : i16 (s_sens s) -> (Z.abs (s_x s) < 32768 /\ Z.abs (s_y s) < 32768)%Z -> scroll_move s x y = Ok (s', vs) ->
  (Z.abs (s_x s') < 32768 /\ Z.abs (s_y s') < 32768)%Z.
Proof.
  unfold i16, scroll_move. intros Hi Hc. destruct (Z.eqb_spec (s_sens s) 0); [intros H; apply Ok_inj, pair_equal_spec in H as [<- _]; exact Hc|].
  destruct (andb _ _); [|discriminate]. intros H. apply Ok_inj, pair_equal_spec in H as [<- _]. cbn [s_x s_y].
  pose proof (Z.rem_bound_abs (s_x s + x) (s_sens s) n). pose proof (Z.rem_bound_abs (s_y s + y) (s_sens s) n). lia.
Qed.
Lemma handler_fit fuel wr ev ts d d' t : event_handler fuel wr ev ts d = Ok (d', t) -> ~ hasty (d, ev, ts, t) -> FR d d'.
Proof.
  intros H Hh.
  assert (B : forall con m texts grabs, ev = EvClient con m texts grabs -> i_type m = IBind -> FR d d').
  { intros con m texts grabs -> Hm [C F]. unfold event_handler in H. cbv zeta in H.
    destruct (handle_client _ _ _ _ _ _) as [d1| | |] eqn:E; cbn [bind] in H; try discriminate H.
    apply Ok_inj, pair_equal_spec in H as [<- _]. unfold fit_all. cbn [d_clock d_ents set_d_times]. unfold handle_client in E. rewrite Hm in E.
    destruct (4096 <=? _); [apply Ok_inj in E; subst; split; [exact C|exact F]|].
    destruct (1000000 <? _); [apply Ok_inj in E; subst; split; [exact C|exact F]|].
    cbv zeta in E. cbn [d_ents set_d_times] in E.
    destruct (eval_all _ _) as [[ks ok]| | |] eqn:E1; cbn [bind] in E; try discriminate E.
    apply Ok_inj in E. subst d1. cbn [vemit d_clock d_ents set_d_out set_d_ents set_d_times]. split; [exact C|].
    eapply eval_all_fit; eauto. intros X. apply Hh. split; auto. }
  assert (R : match ev with EvClient con m _ _ => i_type m <> IBind | _ => True end -> FR d d').
  { intros Hb. revert H.
    apply (handler_rel_all fuel wr FR (fun _ => True) False True True (fun _ => True)); try (intros; apply fit_same; reflexivity).
    - intros a b c H1 H2 H. auto.
    - intros c s e. destruct (dsend_ents c s e) as (A & _ & X & _). now apply fit_same.
    - intros. eapply fit_run; eauto.
    - intros p k x y e H (dx & dy & vs & Hm) [C F]. split; [exact C|]. cbn [store d_ents d_clock set_d_ents]. apply Forall_upd; [|exact F].
      apply deref_in in H. rewrite Forall_forall in F. pose proof (F _ H) as X. apply (fit_outside _ k); auto; [apply out_motion|apply X|].
      unfold counters. cbn [k_scroll set_k_scroll]. eapply scroll_small; [|apply X|exact Hm]. apply X.
    - intros con e e' _ H.
      assert (X : same_ents e e'); [|destruct X as (A & _ & X & _); now apply fit_same].
      revert H. apply listener_keeps; intros; try (repeat split; fail). eapply same_ents_trans; eauto.
    - intros ? ? ? ? [].
    - intros. eapply reload_fit; eauto.
    - destruct ev as [| | | |con m x g]; auto. unfold permitted. destruct (i_type m); auto. }
  destruct ev as [| | | |con m texts grabs]; auto. destruct (i_type m) eqn:Em; [eapply B; eauto|..]; apply R; discriminate.
Qed.

(* ---- outcomes -------------------------------------------------------------------------------------- *)
Definition ends {A} (U : Prop) (F : crash -> Prop) (P : A -> Prop) (r : res A) : Prop :=
  match r with Ok a => P a | Crash c => F c | UB => U | NoFuel => True end.
Lemma ends_bind {A B} U F (P : A -> Prop) (Q : B -> Prop) (x : res A) (f : A -> res B) :
  ends U F P x -> (forall a, x = Ok a -> P a -> ends U F Q (f a)) -> ends U F Q (bind x f).
Proof. destruct x; cbn; auto. Qed.
Lemma ends_imp {A} (U U' : Prop) (F F' : crash -> Prop) (P P' : A -> Prop) r :
  ends U F P r -> (U -> U') -> (forall c, F c -> F' c) -> (forall a, r = Ok a -> P a -> P' a) -> ends U' F' P' r.
Proof. destruct r; cbn; auto. Qed.

Lemma deref_live d p : deref d p = UB <-> ~ live d p.
Proof.
  unfold deref, live. destruct (Nat.eqb_spec (fst p) (d_gen d)) as [E|E].
  - destruct (nth_error (d_ents d) (snd p)) eqn:En.
    + split; [discriminate|]. intros H. exfalso. apply H. split; [exact E|]. apply nth_error_Some. congruence.
    + split; auto. intros _ [_ H]. apply nth_error_None in En. lia.
  - split; auto. intros _ [H _]. auto.
Qed.
Lemma deref_ends d p : ends (~ live d p) limit (fun k => In k (d_ents d) /\ live d p) (deref d p).
Proof.
  destruct (deref d p) as [k|c| |] eqn:E; cbn [ends].
  - split; [now apply deref_in in E|]. unfold deref, live in *. destruct (Nat.eqb_spec (fst p) (d_gen d)); [|discriminate].
    destruct (nth_error _ _) eqn:En; [|discriminate]. split; [auto|]. apply nth_error_Some. congruence.
  - unfold deref in E. destruct (Nat.eqb _ _); [destruct (nth_error _ _)|]; discriminate.
  - now apply deref_live.
  - exact Logic.I.
Qed.
Lemma deliver_fine wr p c : short c -> forall os d, exists d', deliver_all wr p c os d = Ok d'.
Proof.
  intros Hs. induction os as [|o r IH]; cbn [deliver_all]; intros d; [eauto|].
  assert (E : exists d1, deliver wr p c d o = Ok d1); [|destruct E as [d1 ->]; cbn [bind]; apply IH].
  destruct o as [code st|i on ind|cmd|us]; cbn [deliver]; eauto. unfold on_layer_change. cbv zeta.
  match goal with |- context [d_lst ?x] => destruct (d_lst x) end; [eauto|]. unfold buf_text.
  specialize (Hs i). cbn [length]. rewrite app_length. cbn [length].
  destruct (Nat.ltb_spec (S (length (lname c i) + 1))%nat 66%nat); cbn [bind]; [eauto|].
  destruct (Nat.eqb_spec (S (length (lname c i) + 1))%nat 66%nat); cbn [bind]; [eauto|]. lia.
Qed.
Lemma crash_limit x : engine_crash x -> limit x.
Proof. destruct x; cbn; intros H; try contradiction; constructor. Qed.
Lemma run_ends fuel wr p ev d : fit_all d ->
  ends (~ live d p) limit (fun r => forall q, live (fst r) q <-> live d q) (run_kbd fuel wr p ev d).
Proof.
  intros Hf. unfold run_kbd. eapply ends_bind; [apply deref_ends|]. intros k _ [Hk Hl].
  pose proof (events_fit fuel _ [ev] (f_wf _ _ (fit_clock _ _ Hf Hk))) as G.
  destruct (kbd_process_events _ _ _) as [[k1 t]|x| |] eqn:E; cbn [bind].
  - cbn [sf safe fst] in G. destruct G as (_ & _ & G3 & _).
    destruct (deliver_fine wr p (k_cfg k1) ltac:(rewrite G3; destruct Hf as [_ F]; rewrite Forall_forall in F; apply (F _ Hk))
      (rev (firstn (length (k_out k1) - length (k_out k)) (k_out k1))) (set_d_clock (k_clock k1) d)) as [d1 E1].
    rewrite E1. cbn [bind ends fst]. apply deliver_ents in E1 as (A & B & _). intros q. unfold live. cbn [store d_gen d_ents set_d_ents].
    rewrite upd_length, A, B. reflexivity.
  - exact (crash_limit _ G).
  - destruct G.
  - exact Logic.I.
Qed.
Lemma keypress_ends fuel wr p c ts d : fit_all d ->
  ends (~ live d p) limit (fun r => forall q, live (fst r) q <-> live d q) (process_keypress fuel wr p c ts d).
Proof.
  intros Hf. unfold process_keypress. eapply ends_bind; [now apply run_ends|]. intros [d1 t1] E H. cbn [fst] in H.
  eapply ends_imp; [apply run_ends; eapply fit_run; eauto|rewrite H; auto|auto|]. intros [d2 t2] _ H2 q. cbn [fst] in *. now rewrite H2.
Qed.
Lemma keypress_fit fuel wr p c ts d d' t : process_keypress fuel wr p c ts d = Ok (d', t) -> FR d d'.
Proof.
  unfold process_keypress. intros H. destruct (run_kbd _ _ _ _ _) as [[d1 t1]| | |] eqn:E; cbn [bind] in H; try discriminate H.
  apply fit_run in E, H. intros F. auto.
Qed.
Lemma keypresses_ends fuel wr p c ts n : forall tmo d, fit_all d ->
  ends (~ live d p) limit (fun r => fit_all (fst r) /\ forall q, live (fst r) q <-> live d q) (keypresses fuel wr p c ts n tmo d).
Proof.
  induction n as [|n IH]; intros tmo d Hf; cbn [keypresses]; [cbn [ends fst]; split; [exact Hf|reflexivity]|].
  eapply ends_bind; [now apply keypress_ends|]. intros [d1 t1] E H. cbn [fst] in H.
  eapply ends_imp; [apply IH; eapply keypress_fit; eauto|rewrite H; auto|auto|]. intros [d2 t2] _ [H1 H2]. split; [exact H1|]. intros q.
  cbn [fst] in *. now rewrite H2.
Qed.

(* ---- motion ------------------------------------------------------------------------------------------ *)
Lemma int_ok_fits z : int_ok z = true <-> fits z.
Proof. unfold int_ok, fits. rewrite andb_true_iff, !Z.leb_le. lia. Qed.
Lemma quot_half a s : (2 <= Z.abs s)%Z -> (Z.abs (Z.quot a s) * 2 <= Z.abs a)%Z.
Proof.
  intros Hs. rewrite <- Z.quot_abs by lia. pose proof (Z.mul_quot_le (Z.abs a) (Z.abs s) ltac:(lia) ltac:(lia)) as M.
  assert (Q : (0 <= Z.quot (Z.abs a) (Z.abs s))%Z) by (apply Z.quot_pos; lia). revert M Q. generalize (Z.quot (Z.abs a) (Z.abs s)). intros q M Q.
  pose proof (Z.mul_le_mono_nonneg_r 2 (Z.abs s) q Q Hs). lia.
Qed.
Lemma quot_fits a s : fits a -> (s <> 0)%Z -> fits (Z.quot a s) \/ s = (-1)%Z /\ a = (-2147483648)%Z.
Proof.
  unfold fits. intros Ha Hs. destruct (Z.eq_dec s (-1)) as [->|Hn].
  - destruct (Z.eq_dec a (-2147483648)); [auto|]. left. change (-1)%Z with (- (1))%Z. rewrite Z.quot_opp_r, Z.quot_1_r by lia. lia.
  - left. destruct (Z.eq_dec s 1) as [->|H1]; [rewrite Z.quot_1_r; lia|].
    pose proof (quot_half a s ltac:(lia)). lia.
Qed.
Lemma neg_fits a s : fits a -> (s <> 0)%Z -> fits (Z.quot a s) ->
  fits (-1 * Z.quot a s) \/ s = 1%Z /\ a = (-2147483648)%Z.
Proof.
  unfold fits. intros Ha Hs Hq. destruct (Z.eq_dec (Z.quot a s) (-2147483648)) as [E|]; [|left; lia]. right.
  destruct (Z.eq_dec s 1) as [->|H1]; [rewrite Z.quot_1_r in E; auto|].
  destruct (Z.eq_dec s (-1)) as [->|H2].
  { change (-1)%Z with (- (1))%Z in E. rewrite Z.quot_opp_r, Z.quot_1_r in E by lia. lia. }
  pose proof (quot_half a s ltac:(lia)). lia.
Qed.
Lemma scroll_ub s x y : (scroll_move s x y = UB <-> overflows s x y) /\ forall c, scroll_move s x y <> Crash c /\ scroll_move s x y <> NoFuel.
Proof.
  unfold scroll_move, overflows. destruct (Z.eqb_spec (s_sens s) 0) as [E|E].
  { split; [|split; discriminate]. split; [discriminate|]. intros [H _]. contradiction. }
  destruct (_ && _) eqn:B.
  - split; [|split; discriminate]. split; [discriminate|]. intros [_ H]. exfalso.
    rewrite !andb_true_iff, !int_ok_fits in B. destruct B as ((((B1 & B2) & B3) & B4) & B5).
    destruct H as [H|[H|[[H1 H2]|[[H1|H1] H2]]]]; auto.
    + rewrite H1, H2 in B5. vm_compute in B5. destruct B5. discriminate.
    + rewrite H1, H2 in B4. vm_compute in B4. destruct B4. discriminate.
    + rewrite H1, H2 in B3. vm_compute in B3. destruct B3. discriminate.
  - split; [|split; discriminate]. split; [|reflexivity]. intros _. split; [exact E|].
    assert (D : forall z, int_ok z = false -> ~ fits z) by (intros z H X; apply int_ok_fits in X; congruence).
    destruct (int_ok (s_y s + y)) eqn:B1; [|right; left; auto]. destruct (int_ok (s_x s + x)) eqn:B2; [|left; auto].
    apply int_ok_fits in B1, B2. right. right. cbn [andb] in B.
    destruct (int_ok (Z.quot (s_y s + y) (s_sens s))) eqn:B3.
    + apply int_ok_fits in B3. destruct (int_ok (-1 * _)) eqn:B4.
      * apply D in B. destruct (quot_fits _ _ B2 E) as [Q|Q]; [contradiction|auto].
      * apply D in B4. destruct (neg_fits _ _ B1 E B3) as [Q|Q]; [contradiction|]. right. tauto.
    + apply D in B3. destruct (quot_fits _ _ B1 E) as [Q|Q]; [contradiction|]. right. tauto.
Qed.

(* ---- clients ------------------------------------------------------------------------------------------- *)
Definition text_only {A} (s : str) (r : res A) : Prop := ends False (fun x => x = CUtf8 /\ ~ ascii s) (fun _ => True) r.
Lemma text_bind {A B} s (x : res A) (f : A -> res B) : text_only s x -> (forall a, x = Ok a -> text_only s (f a)) -> text_only s (bind x f).
Proof. unfold text_only. destruct x; cbn; auto. Qed.
Lemma text_sub {A} s t (r : res A) : (forall c, In c t -> In c s) -> text_only t r -> text_only s r.
Proof.
  intros H. unfold text_only. destruct r; cbn; auto. intros [-> N0]. split; [reflexivity|]. intros A0. apply N0. eapply ascii_incl; eauto.
Qed.
Lemma utf8_text_only s : text_only s (utf8_read_char s).
Proof.
  unfold text_only. pose proof (utf8_read_within false s) as W.
  destruct (utf8_read_char s) as [a|x| |] eqn:E; cbn [ends]; auto.
  - split.
    + unfold utf8_read_char in E. destruct s; [discriminate|].
      repeat match type of E with context [if ?b then _ else _] => destruct b end; try discriminate E; now injection E.
    + intros A. specialize (W (or_intror A)). discriminate W.
  - unfold utf8_read_char in E. destruct s; [discriminate|].
    repeat match type of E with context [if ?b then _ else _] => destruct b end; discriminate E.
Qed.
Lemma parse_text_only : forall f s m, text_only s (parse_text f s m).
Proof.
  induction f as [|f IH]; intros s m; cbn [parse_text]; [exact Logic.I|].
  apply text_bind; [apply utf8_text_only|]. intros [sz cp] _. destruct sz as [|sz]; [exact Logic.I|].
  match goal with |- text_only _ (match ?n with None => _ | Some _ => _ end) => destruct n end; [|exact Logic.I].
  eapply text_sub; [|apply IH]. intros c. apply skipn_incl.
Qed.
Lemma parse_tokens_only s : forall toks m, (forall t c, In t toks -> In c t -> In c s) -> text_only s (parse_tokens toks m).
Proof.
  induction toks as [|t toks IH]; intros m Ht; cbn [parse_tokens]; [exact Logic.I|].
  apply text_bind; [|intros [m'|] _; [apply IH; intros t0 c H1 H2; apply (Ht t0); [now right|exact H2]|exact Logic.I]].
  unfold parse_token. destruct (parse_key_sequence t) as [[code mods]|]; [exact Logic.I|].
  destruct (has_char 43 t); [exact Logic.I|]. destruct (is_timeval t); [exact Logic.I|].
  eapply text_sub; [|apply parse_text_only]. intros c Hc. apply (Ht t); [now left|exact Hc].
Qed.
Lemma macro_only s : text_only s (macro_parse s).
Proof. apply parse_tokens_only. intros t c Ht Hc. destruct (tokens_from_incl _ _ _ _ _ Ht Hc) as [G|[]]. exact G. Qed.
Lemma input_only : forall f buf tmo d, text_only buf (input f buf tmo d).
Proof.
  induction f as [|f IH]; intros buf tmo d; cbn [input]; [exact Logic.I|].
  apply text_bind; [apply utf8_text_only|]. intros [sz cp] _. destruct sz as [|sz]; [exact Logic.I|].
  destruct (input_char (S sz) cp d) as [d1 ok]. destruct ok; [|exact Logic.I].
  eapply text_sub; [|apply IH]. intros c. apply skipn_incl.
Qed.
Lemma cstr_incl l c : In c (cstr l) -> In c l.
Proof. induction l as [|x l IH]; cbn [cstr]; [auto|]. destruct (x =? 0); [intros []|]. intros [H|H]; cbn; auto. Qed.
Lemma chop_incl n : forall l c, In c (chop n l) -> c = 0 \/ In c l.
Proof.
  induction n as [|n IH]; cbn [chop]; intros l c H; [auto|]. destruct (_ =? 10); [|auto].
  apply IH in H as [H|H]; [auto|]. apply In_upd in H as [H|H]; auto.
Qed.
Lemma eval_all_mild exp : forall ks, Forall (fun k => inv (k_cfg k)) ks -> mild (eval_all ks exp).
Proof.
  induction ks as [|k r IH]; intros F; cbn [eval_all]; [exact Logic.I|]. inversion F as [|? ? F1 F2]; subst.
  apply mild_bind.
  - unfold kbd_eval. destruct (str_eqb _ _); [exact Logic.I|]. apply mild_bind; [apply add_entry_mild; apply F1|].
    intros [c ok] _. exact Logic.I.
  - intros [k1 ok] _. apply mild_bind; [auto|]. intros [r1 ok'] _. exact Logic.I.
Qed.
Lemma load_ends texts clk : forall acc,
  ends (exists pre text post, texts = pre ++ text :: post /\ Forall (fun t => exists o, config_parse t = Ok o) pre /\ config_parse text = UB)
       (fun x => exists pre text post, texts = pre ++ text :: post /\ Forall (fun t => exists o, config_parse t = Ok o) pre /\ config_parse text = Crash x)
       (fun _ => Forall (fun t => exists o, config_parse t = Ok o) texts) (load_files texts clk acc).
Proof.
  induction texts as [|t r IH]; cbn [load_files]; intros acc; [constructor|].
  destruct (config_parse t) as [o|x| |] eqn:E; cbn [bind].
  - eapply ends_imp; [apply IH|..].
    + intros (pre & text & post & -> & F & H). exists (t :: pre), text, post. split; [reflexivity|]. split; [constructor; eauto|exact H].
    + intros x (pre & text & post & -> & F & H). exists (t :: pre), text, post. split; [reflexivity|]. split; [constructor; eauto|exact H].
    + intros a _ F. constructor; eauto.
  - exists [], t, r. repeat split; auto.
  - exists [], t, r. repeat split; auto.
  - exact Logic.I.
Qed.
Lemma listener_ends wr con d :
  ends (length (d_lst d) <> 32%nat /\ gone d) (fun _ => False) (fun _ => True) (add_listener wr con d).
Proof.
  unfold add_listener. change MAX_LISTENERS with 32%nat. destruct (Nat.eqb_spec (length (d_lst d)) 32) as [E|E]; [exact Logic.I|].
  destruct (d_active d) as [p|] eqn:Ea; [|exact Logic.I].
  pose proof (deref_ends d p) as D. destruct (deref d p) as [k|x| |] eqn:Ed; cbn [bind ends] in *.
  - destruct (write_msg _ _ _ _) as [d1 o1]. destruct (send_layers _ _ _ _ _) as [d2 o2]. exact Logic.I.
  - unfold deref in Ed. destruct (Nat.eqb _ _); [destruct (nth_error _ _)|]; discriminate.
  - split; [exact E|]. exists p. auto.
  - exact Logic.I.
Qed.
Lemma client_ends wr con m texts grabs d : fit_all d ->
  ends (fault d (EvClient con m texts grabs)) (aborts (EvClient con m texts grabs)) (fun _ => True) (handle_client wr con m texts grabs d).
Proof.
  intros [_ Hf]. unfold handle_client. destruct (N.leb_spec 4096 (i_sz m)) as [|H1]; [exact Logic.I|].
  destruct (N.ltb_spec 1000000 (i_timeout m)) as [|H2]; [exact Logic.I|]. cbv zeta.
  assert (Hh : heard m) by (split; lia). destruct (i_type m) eqn:Em.
  - assert (G : mild (eval_all (d_ents d) (cstr (upd (N.to_nat (i_sz m)) 0 (i_data m))))).
    { apply eval_all_mild. eapply Forall_impl; [|exact Hf]. intros k X. apply X. }
    destruct (eval_all _ _) as [[ks ok]|x| |]; cbn [bind ends mild] in *; auto; [|contradiction]. now apply aborts_bind.
  - assert (G : text_only (upd (N.to_nat (i_sz m)) 0 (i_data m))
       (input (S (length (cstr (upd (N.to_nat (i_sz m)) 0 (i_data m))))) (cstr (upd (N.to_nat (i_sz m)) 0 (i_data m))) (i_timeout m) d)).
    { eapply text_sub; [|apply input_only]. intros c. apply cstr_incl. }
    destruct (input _ _ _ _) as [[d1 ok]|x| |]; cbn [bind ends text_only] in *; auto; [|contradiction]. destruct G as [-> G].
    apply aborts_text; auto. intros S7. apply G. apply Forall_forall. intros c Hc. apply In_upd in Hc as [->|Hc]; [lia|].
    unfold seven_bit in S7. rewrite Forall_forall in S7. auto.
  - assert (G : text_only (cstr (chop (N.to_nat (i_sz m)) (upd (N.to_nat (i_sz m)) 0 (i_data m))))
       (macro_parse (cstr (chop (N.to_nat (i_sz m)) (upd (N.to_nat (i_sz m)) 0 (i_data m)))))) by apply macro_only.
    destruct (macro_parse _) as [[mac|]|x| |]; cbn [bind ends text_only] in *; auto; [|contradiction]. destruct G as [-> G].
    apply aborts_text; auto. intros S7. apply G. apply Forall_forall. intros c Hc. apply cstr_incl, chop_incl in Hc as [->|Hc]; [lia|].
    apply In_upd in Hc as [->|Hc]; [lia|]. unfold seven_bit in S7. rewrite Forall_forall in S7. auto.
  - unfold reload. pose proof (load_ends texts (d_clock d) []) as G.
    destruct (load_files _ _ _) as [ents|x| |]; cbn [bind ends] in *; auto.
    + destruct G as (pre & text & post & -> & F & E). now apply aborts_reload.
    + destruct G as (pre & text & post & -> & F & E). now apply fault_reload.
  - pose proof (listener_ends wr con d) as G. destruct (add_listener _ _ _) as [d1|x| |]; cbn [ends] in *; auto; [contradiction|].
    destruct G. now apply fault_listener.
  - exact Logic.I.
Qed.

(* ---- devices ---------------------------------------------------------------------------------------------- *)
Lemma device_ends fuel wr i de ts d : fit_all d -> ptr_ok d -> (i < length (d_devs d))%nat ->
  ends (fault d (EvDev i de)) (fun x => limit x /\ (de_type de = DevKey \/ de_type de = DevScroll)) (fun _ => True) (device_event fuel wr i de ts d).
Proof.
  intros Hf Hp Hi. unfold device_event. destruct (nth_error (d_devs d) i) as [dv|] eqn:En.
  2:{ apply nth_error_None in En. lia. }
  assert (Lv : forall p, dv_data dv = Some p -> live d p) by (intros p Hd; eapply po_dev; [exact Hp|eapply nth_error_In; eauto|exact Hd]).
  destruct (dv_data dv) as [p|] eqn:Ed.
  - specialize (Lv p eq_refl). set (d1 := set_d_active (Some p) d).
    assert (Hf1 : fit_all d1) by exact Hf. assert (L1 : live d1 p) by exact Lv.
    destruct (de_type de) eqn:Et.
    + eapply (ends_bind _ _ (fun _ => True)); [|intros [d2 t2] _ _; exact Logic.I].
      eapply ends_imp; [apply (run_ends fuel wr p _ d1 Hf1)|intros H; contradiction|auto|intros; exact Logic.I].
    + exact Logic.I.
    + change (deref d1 p) with (deref d p). destruct (live_deref _ _ Lv) as [k Ek]. rewrite Ek. cbn [bind].
      destruct (s_active (k_scroll k)) eqn:Ea; [|exact Logic.I].
      destruct (scroll_ub (k_scroll k) (de_x de) (de_y de)) as [S1 S2].
      destruct (scroll_move _ _ _) as [[s vs]|x| |] eqn:Es; cbn [bind ends]; auto.
      * exfalso. now apply (proj1 (S2 x)).
      * eapply fault_motion; eauto. now apply S1.
    + exact Logic.I.
    + eapply (ends_bind _ _ (fun r => fit_all (fst r) /\ forall q, live (fst r) q <-> live d1 q)); [|intros [d2 t2] _ H2; eapply (ends_bind _ _ (fun _ => True)); [|intros [d3 t3] _ _; exact Logic.I]].
      * destruct (_ =? 0)%Z; [split; [exact Hf1|reflexivity]|].
        eapply ends_imp; [apply keypresses_ends; exact Hf1|intros H; contradiction|auto|auto].
      * cbn [fst] in H2. destruct H2 as [F2 H2]. destruct (_ =? 0)%Z; [exact Logic.I|].
        eapply ends_imp; [apply keypresses_ends; exact F2|rewrite H2; intros H; contradiction|auto|intros; exact Logic.I].
    + exact Logic.I.
  - destruct (dv_virtual dv) eqn:Ev; cbn [negb andb].
    { destruct (de_type de); exact Logic.I. }
    destruct (N.eqb_spec (N.land (dv_caps dv) CAP_MOUSE) 0) as [|Hc]; cbn [negb]; [exact Logic.I|].
    destruct (d_active d) as [p|] eqn:Ea; [|exact Logic.I].
    assert (G : forall t, ends (gone d) limit (fun _ => True) (process_keypress fuel wr p K_EXTERNAL_MOUSE t d)).
    { intros t. eapply ends_imp; [apply keypress_ends; exact Hf|intros H; exists p; auto|auto|auto]. }
    destruct (de_type de) eqn:Et; try exact Logic.I.
    + eapply (ends_bind _ _ (fun _ => True)); [|intros [d2 t2] _ _; exact Logic.I].
      eapply ends_imp; [apply G|intros H; eapply fault_mouse; eauto|auto|intros; exact Logic.I].
    + eapply (ends_bind _ _ (fun _ => True)); [|intros [d2 t2] _ _; exact Logic.I].
      eapply ends_imp; [apply G|intros H; eapply fault_mouse; eauto|auto|intros; exact Logic.I].
Qed.
Lemma fault_times l t d ev : fault (set_d_times l t d) ev -> fault d ev.
Proof.
  intros H. inversion H; subst.
  - now apply fault_timer.
  - eapply fault_mouse; eauto.
  - now apply fault_listener.
  - eapply fault_motion; eauto.
  - now apply fault_reload.
Qed.
Lemma handler_ends fuel wr ev ts d : fit_all d -> ptr_ok d -> in_table d ev ->
  ends (fault d ev) (aborts ev) (fun _ => True) (event_handler fuel wr ev ts d).
Proof.
  intros Hf Hp Hi. unfold event_handler. cbv zeta.
  set (t0 := Z.max 0 (d_timeout d - (ts - d_last d))). set (d1 := set_d_times ts t0 d).
  assert (Hf1 : fit_all d1) by exact Hf. assert (Hp1 : ptr_ok d1) by (destruct Hp; constructor; assumption).
  assert (Ft : forall ev, fault d1 ev -> fault d ev) by (intros e; apply fault_times).
  destruct ev as [|i de|i grab|i|con m texts grabs]; cbn [in_table] in Hi.
  - change (d_active d1) with (d_active d). destruct (d_active d) as [p|] eqn:Ea; [|exact Logic.I].
    eapply (ends_bind _ _ (fun _ => True)); [|intros [d2 t2] _ _; exact Logic.I].
    eapply ends_imp; [apply run_ends; exact Hf1|..].
    + intros H. apply fault_timer. exists p. auto.
    + intros x Hx. now apply aborts_timer.
    + intros; exact Logic.I.
  - eapply (ends_bind _ _ (fun _ => True)); [|intros [d2 t2] _ _; exact Logic.I].
    eapply ends_imp; [apply (device_ends fuel wr i de ts d1 Hf1 Hp1 Hi)|apply Ft| |intros; exact Logic.I].
    intros x [Hx Ht]. now apply aborts_device.
  - change (d_devs d1) with (d_devs d). destruct (nth_error (d_devs d) i) eqn:En; [exact Logic.I|].
    apply nth_error_None in En. lia.
  - exact Logic.I.
  - eapply (ends_bind _ _ (fun _ => True)); [|intros d2 _ _; exact Logic.I].
    eapply ends_imp; [apply (client_ends wr con m texts grabs d1 Hf1)|apply Ft|auto|intros; exact Logic.I].
Qed.

(* ---- faults are faults ---------------------------------------------------------------------------------------- *)
Lemma run_gone fuel wr p ev d : ~ live d p -> run_kbd fuel wr p ev d = UB.
Proof. intros H. unfold run_kbd. apply deref_live in H. now rewrite H. Qed.
Lemma load_ub texts clk pre text post : texts = pre ++ text :: post -> Forall (fun t => exists o, config_parse t = Ok o) pre ->
  config_parse text = UB -> forall acc, load_files texts clk acc = UB.
Proof.
  intros -> F H. induction F as [|t pre [o Ho] F IH]; intros acc; cbn [app load_files]; [now rewrite H|]. rewrite Ho. cbn [bind]. apply IH.
Qed.
Lemma fault_ub fuel wr ev ts d : fault d ev -> event_handler fuel wr ev ts d = UB.
Proof.
  intros H. unfold event_handler. cbv zeta. set (t0 := Z.max 0 (d_timeout d - (ts - d_last d))).
  destruct H as [(p & Ha & Hl)|i de dv Hn Hd Hv Hc Ht (p & Ha & Hl)|con m texts grabs [H1 H2] Hm Hs (p & Ha & Hl)
                |i de dv p k Hn Hd Hk Ht Hs Ho|con m pre text post grabs [H1 H2] Hm F Hp].
  - cbn [d_active set_d_times]. rewrite Ha. rewrite run_gone by exact Hl. reflexivity.
  - unfold device_event. cbn [d_devs d_active set_d_times]. rewrite Hn, Hd, Hv, Ha. cbn [negb andb].
    destruct (N.eqb_spec (N.land (dv_caps dv) CAP_MOUSE) 0); [contradiction|]. cbn [negb]. unfold process_keypress.
    rewrite run_gone by exact Hl. destruct Ht as [-> | ->]; reflexivity.
  - unfold handle_client. destruct (N.leb_spec 4096 (i_sz m)); [lia|]. destruct (N.ltb_spec 1000000 (i_timeout m)); [lia|]. cbv zeta. rewrite Hm.
    unfold add_listener. cbn [d_lst d_active set_d_times]. change MAX_LISTENERS with 32%nat.
    destruct (Nat.eqb_spec (length (d_lst d)) 32); [contradiction|]. rewrite Ha.
    assert (E : deref (set_d_times ts t0 d) p = UB) by (apply deref_live; exact Hl). rewrite E. reflexivity.
  - unfold device_event. cbn [d_devs set_d_times]. rewrite Hn, Hd, Ht.
    change (deref (set_d_active (Some p) (set_d_times ts t0 d)) p) with (deref d p). rewrite Hk. cbn [bind]. rewrite Hs.
    apply scroll_ub in Ho. rewrite Ho. reflexivity.
  - unfold handle_client. destruct (N.leb_spec 4096 (i_sz m)); [lia|]. destruct (N.ltb_spec 1000000 (i_timeout m)); [lia|]. cbv zeta. rewrite Hm.
    unfold reload. rewrite (load_ub _ _ pre text post eq_refl F Hp). reflexivity.
Qed.

(* ---- runs --------------------------------------------------------------------------------------------------------- *)
Lemma fit_devs v d : fit_all d -> fit_all (set_d_devs v d).
Proof. auto. Qed.
Lemma start_fit fuel wr texts devs grabs ts l : start fuel wr texts devs grabs ts = Ok l -> fit_all (lp_d l).
Proof.
  unfold start. intros H. destruct (reload _ _ _) as [d| | |] eqn:Er; cbn [bind] in H; try discriminate H.
  destruct (calls _ _ _ _ _) as [l1| | |] eqn:E; cbn [bind] in H; try discriminate H. apply Ok_inj in H. subst l. cbn [lp_d].
  apply (calls_at fuel wr (fun d _ => fit_all d) (fun ev => exists i g, ev = EvAdd i g)) in E; [exact E|..].
  - intros ev ts0 d0 d1 t cs (i & g & ->) He. eapply handler_fit; [exact He|]. intros [].
  - apply Forall_forall. intros e He. apply in_map_iff in He as (i & <- & _). eauto.
  - unfold at_l. cbn [lp_d]. apply fit_devs. eapply reload_fit; eauto. split; [cbn; lia|constructor].
Qed.
Lemma runs_fit fuel wr l : runs fuel wr l -> Forall (fun x => ~ hasty x) (lp_calls l) -> fit_all (lp_d l).
Proof.
  induction 1 as [texts devs grabs ts l Hf H|r l l' Hr IH Hf H]; [intros _; eapply start_fit; eauto|].
  apply (round_at fuel wr (fun d cs => Forall (fun x => ~ hasty x) cs -> fit_all d) (fun _ => True) (fun _ => True)) in H; auto.
  - intros ev ts d d' t cs _ He P F. inversion F as [|? ? F1 F2]; subst. eapply handler_fit; eauto.
  - intros dv g ts d d' t cs _ He P F. inversion F as [|? ? F1 F2]; subst. eapply handler_fit; eauto.
  - apply Forall_forall. auto.
  - apply Forall_forall. auto.
Qed.

(* ---- steady runs ---------------------------------------------------------------------------------------------------- *)
Definition settled_d (d : dstate) : Prop := ptr_ok d /\ fit_all d /\ d_gen d = 1%nat.
Definition small (de : devev) : Prop :=
  de_type de = DevMove -> (Z.abs (de_x de) < 2147483648 - 32768)%Z /\ (Z.abs (de_y de) < 2147483648 - 32768)%Z.
Definition calm_ev (ev : event) : Prop :=
  match ev with EvClient _ m _ _ => i_type m <> IReload /\ i_type m <> IBind | EvDev _ de => small de | _ => True end.
Lemma no_fault d ev : settled_d d -> calm_ev ev -> ~ fault d ev.
Proof.
  intros (Hp & [_ Hf] & Hg) Hc H.
  assert (G : ~ gone d).
  { intros (p & Ha & Hl). destruct (po_active _ Hp _ Ha) as [L|L]; [rewrite Hg in L; lia|contradiction]. }
  destruct H as [?|i de dv Hn Hd Hv Hx Ht ?|con m texts grabs Hh Hm Hs ?|i de dv p k Hn Hd Hk Ht Hs Ho|con m pre text post grabs Hh Hm F Hx]; auto.
  - apply deref_in in Hk. rewrite Forall_forall in Hf. pose proof (f_motion _ _ (Hf _ Hk)) as M. unfold counters in M.
    destruct (Hc Ht) as [C1 C2]. unfold overflows, fits in Ho. lia.
  - destruct Hc as [C _]. contradiction.
Qed.
Lemma calm_ends fuel wr ev ts d : settled_d d -> in_table d ev -> calm_ev ev ->
  ends False (aborts ev) (fun r => settled_d (fst r) /\ match ev with EvAdd _ _ => True | _ => d_devs (fst r) = d_devs d end)
       (event_handler fuel wr ev ts d).
Proof.
  intros Hs Hi Hc. pose proof Hs as (Hp & Hf & Hg). eapply ends_imp; [apply (handler_ends fuel wr ev ts d Hf Hp Hi)|..].
  - now apply no_fault.
  - auto.
  - intros [d' t] E _. cbn [fst].
    assert (F' : fit_all d').
    { eapply handler_fit; eauto. destruct ev; cbn; auto. destruct Hc as [_ Hc]. intros [X _]. contradiction. }
    assert (P' : ptr_ok d') by (eapply handler_ptr; eauto).
    assert (Q : match ev with EvAdd _ _ => False | _ => True end -> d_gen d' = d_gen d /\ d_devs d' = d_devs d).
    { intros Ha. apply quiet_handler in E as (A & _ & B); [auto|]. destruct ev; auto. apply Hc. }
    split.
    + split; [exact P'|]. split; [exact F'|]. rewrite <- Hg. destruct ev; try (apply Q; exact Logic.I).
      unfold event_handler in E. cbv zeta in E. cbn [d_devs set_d_times] in E. destruct (nth_error _ _); [|discriminate E]. cbn [bind] in E.
      apply Ok_inj, pair_equal_spec in E as [<- _]. reflexivity.
    + destruct ev; try (apply Q; exact Logic.I). exact Logic.I.
Qed.

Definition at_ease (ax : list axes) (l : lstate) : Prop :=
  settled_d (lp_d l) /\ small (lp_de l) /\ map dv_axes (d_devs (lp_d l)) = ax.
Lemma read_small ax st r : small st -> modest ax r -> ends False (fun _ => False) (fun x => small (fst x)) (device_read_event ax st r).
Proof.
  intros Hs Hm. destruct r as [e| |]; cbn [device_read_event]; [|exact Hs|cbn [ends fst]; discriminate].
  destruct Hm as (M1 & M2 & M3). cbv zeta.
  assert (S : forall v w, (Z.abs v < 2097152)%Z /\ w <> 0 -> exists x, abs_scale v w = Ok x).
  { intros v w [Hv Hw]. unfold abs_scale. destruct (Z.ltb_spec (v * 1024) (-2147483648)); [lia|].
    destruct (Z.ltb_spec 2147483647 (v * 1024)); [lia|]. cbn [orb]. destruct (N.eqb_spec w 0); [contradiction|]. eauto. }
  destruct (N.eqb_spec (ie_type e) EV_REL) as [E|_].
  { specialize (M1 E). repeat match goal with |- context [if ?b then _ else _] => destruct b end; cbn [ends fst]; auto; try discriminate;
      intros _; cbn [de_x de_y]; lia. }
  destruct (N.eqb_spec (ie_type e) EV_ABS) as [E|_].
  { destruct (N.eqb_spec (ie_code e) ABS_X) as [E1|_]; [destruct (S _ _ (M2 E E1)) as [x ->]; cbn [bind ends fst]; discriminate|].
    destruct (N.eqb_spec (ie_code e) ABS_Y) as [E1|_]; [destruct (S _ _ (M3 E E1)) as [x ->]; cbn [bind ends fst]; discriminate|]. exact Hs. }
  destruct (_ =? EV_KEY); [destruct (_ =? 2)%Z; [exact Hs|]; destruct (read_code _); [cbn [ends fst]; discriminate|exact Hs]|].
  destruct (_ =? EV_LED); [cbn [ends fst]; discriminate|exact Hs].
Qed.
Lemma settled_devs d devs : (forall x, In x devs -> In x (d_devs d) \/ unbound x \/ exists y, In y (d_devs d) /\ x = set_dv_open false y) ->
  settled_d d -> settled_d (set_d_devs devs d).
Proof. intros H (A & B & C). split; [now apply ptr_devs|]. split; [exact B|exact C]. Qed.
Lemma upd_axes i dv devs : nth_error devs i = Some dv -> forall dv', dv_axes dv' = dv_axes dv -> map dv_axes (upd i dv' devs) = map dv_axes devs.
Proof. intros H dv' E. eapply map_upd; eauto. Qed.
Lemma read_device_ends fuel wr i ax a rs : nth_error ax i = Some a -> Forall (modest a) rs -> forall ts l, at_ease ax l ->
  ends False limit (at_ease ax) (read_device fuel wr i rs ts l).
Proof.
  intros Ha. induction rs as [|r rs IH]; intros F ts l Hl; cbn [read_device]; [exact Hl|]. inversion F as [|? ? F1 F2]; subst.
  destruct Hl as (Hs & Hd & Hx).
  destruct (nth_error (d_devs (lp_d l)) i) as [dv|] eqn:En.
  2:{ rewrite <- Hx, nth_error_map, En in Ha. discriminate Ha. }
  assert (Edv : dv_axes dv = a) by (rewrite <- Hx, nth_error_map, En in Ha; cbn in Ha; congruence).
  rewrite Edv. pose proof (read_small a (lp_de l) r Hd F1) as R.
  destruct (device_read_event a (lp_de l) r) as [[de ret]|x| |] eqn:Er; cbn [bind ends] in *; auto; try contradiction.
  cbn [fst] in R. set (dv1 := match r with RError => set_dv_open false dv | _ => dv end).
  set (l1 := mkL (set_d_devs (upd i dv1 (d_devs (lp_d l))) (lp_d l)) (lp_timeout l) de (lp_panic l) (lp_dead l) ((i, r) :: lp_reads l) (lp_calls l)).
  assert (E1 : at_ease ax l1).
  { split; [|split; [exact R|]].
    - cbn [l1 lp_d]. apply settled_devs; [|exact Hs]. intros x Hin. apply In_upd in Hin as [->|Hin]; [|auto]. apply nth_error_In in En.
      unfold dv1. destruct r; auto. right. right. eauto.
    - cbn [l1 lp_d d_devs set_d_devs]. rewrite <- Hx. eapply upd_axes; [exact En|]. unfold dv1. destruct r; reflexivity. }
  clearbody l1. clear Er. destruct ret; cbn [negb]; [|exact E1].
  destruct E1 as (S1 & D1 & X1).
  assert (Hlen : (i < length (d_devs (lp_d l1)))%nat).
  { apply nth_error_Some. rewrite <- X1, nth_error_map in Ha. destruct (nth_error (d_devs (lp_d l1)) i); [discriminate|discriminate Ha]. }
  assert (C : forall ev (l2 : lstate), lp_d l2 = lp_d l1 -> lp_de l2 = lp_de l1 -> in_table (lp_d l2) ev -> calm_ev ev ->
    match ev with EvDev _ _ | EvRemove _ => True | _ => False end ->
    ends False limit (at_ease ax) (call fuel wr ev ts l2)).
  { intros ev l2 E2 E3 Hi Hc Hk. unfold call. rewrite E2 in *. eapply ends_bind.
    - eapply ends_imp; [apply (calm_ends fuel wr ev ts (lp_d l1) S1 Hi Hc)|auto| |intros x _ H; exact H].
      intros x Hab. destruct ev; try contradiction; inversion Hab; subst; auto.
    - intros [d' t] _ [H1 H2]. cbn [ends]. split; [exact H1|]. split; [cbn [lp_de]; rewrite E3; exact D1|]. cbn [lp_d fst] in *.
      destruct ev; try contradiction; now rewrite H2. }
  destruct (de_type de) eqn:Et.
  6:{ eapply ends_bind; [apply (C (EvRemove i)); auto; exact Logic.I|]. intros l2 _ (S2 & D2 & X2). cbn [ends].
      destruct (nth_error (d_devs (lp_d l2)) i) as [y|] eqn:Ey.
      2:{ rewrite <- X2, nth_error_map, Ey in Ha. discriminate Ha. }
      rewrite (nth_error_nth _ _ _ Ey). split; [|split; [exact D2|]]; cbn [lp_d].
      - apply settled_devs; [|exact S2]. intros x Hin. apply In_upd in Hin as [->|Hin]; [|auto]. apply nth_error_In in Ey. eauto.
      - cbn [d_devs set_d_devs]. rewrite <- X2. eapply upd_axes; [exact Ey|reflexivity]. }
  all: destruct (panic_check _ _ _) as [pn die]; destruct die; [split; [exact S1|]; split; [exact D1|exact X1]|];
    (eapply ends_bind; [apply C; cbn; auto|]; intros l3 _ E3; now apply IH).
Qed.
Lemma read_devices_ends fuel wr reads ax is : (forall i a, nth_error ax i = Some a -> Forall (modest a) (reads i)) ->
  Forall (fun i => (i < length ax)%nat) is -> forall ts l, at_ease ax l -> ends False limit (at_ease ax) (read_devices fuel wr reads is ts l).
Proof.
  intros Hr. induction is as [|i is IH]; intros F ts l Hl; cbn [read_devices]; [exact Hl|]. inversion F as [|? ? F1 F2]; subst.
  destruct (lp_dead l); [exact Hl|]. destruct (nth_error ax i) as [a|] eqn:Ea; [|apply nth_error_None in Ea; lia].
  eapply ends_bind; [eapply read_device_ends; eauto|]. intros l1 _ H1. now apply IH.
Qed.
Lemma clients_ends fuel wr (X : crash -> Prop) ax cs : Forall (fun '(_, m, _, _) => i_type m <> IReload /\ i_type m <> IBind) cs ->
  (forall con m texts grabs, In (con, m, texts, grabs) cs -> ~ seven_bit (i_data m) -> X CUtf8) -> forall ts l, at_ease ax l ->
  ends False X (at_ease ax) (calls fuel wr (map (fun '(con, m, texts, grabs) => EvClient con m texts grabs) cs) ts l).
Proof.
  induction cs as [|[[[con m] texts] grabs] cs IH]; intros F HX ts l Hl; cbn [map calls]; [exact Hl|]. inversion F as [|? ? F1 F2]; subst.
  eapply (ends_bind _ _ (at_ease ax)).
  2:{ intros l1 _ H1. apply IH; [exact F2| |exact H1]. intros con' m' texts' grabs' Hin. eapply HX. right. exact Hin. }
  destruct Hl as (Hs & Hd & Hx). unfold call. eapply ends_bind.
  - eapply ends_imp; [apply (calm_ends fuel wr (EvClient con m texts grabs) ts (lp_d l) Hs Logic.I F1)|auto| |intros x _ H; exact H].
    intros x Hab. destruct F1 as [N1 N2]. inversion Hab; subst; try congruence. eapply HX; [left; reflexivity|assumption].
  - intros [d' t] _ [H1 H2]. cbn [ends]. split; [exact H1|]. split; [exact Hd|]. cbn [lp_d fst] in *. now rewrite H2.
Qed.
Lemma adds_ends fuel wr devs : forall ts l, Forall (fun x => unbound (fst x)) devs -> settled_d (lp_d l) -> small (lp_de l) ->
  ends False (fun x => x = CDevices /\ (64 < length (d_devs (lp_d l)) + length devs)%nat) (fun l' => settled_d (lp_d l') /\ small (lp_de l'))
    (add_devices fuel wr devs ts l).
Proof.
  induction devs as [|[dv g] devs IH]; intros ts l F Hs Hd; cbn [add_devices]; [cbn; auto|]. inversion F as [|? ? F1 F2]; subst.
  destruct (Nat.ltb_spec (length (d_devs (lp_d l))) 64) as [L|L]; [|cbn [ends length]; split; [reflexivity|lia]].
  set (d0 := set_d_devs (d_devs (lp_d l) ++ [dv]) (lp_d l)).
  assert (S0 : settled_d d0).
  { apply settled_devs; [|exact Hs]. intros x Hin. apply in_app_iff in Hin as [Hin|[<-|[]]]; auto. }
  assert (L0 : length (d_devs d0) = S (length (d_devs (lp_d l)))) by (cbn; rewrite app_length; cbn; lia).
  assert (T0 : in_table d0 (EvAdd (length (d_devs (lp_d l))) g)) by (cbn [in_table]; rewrite L0; lia).
  eapply ends_bind.
  - unfold call. cbn [lp_d]. eapply (ends_bind _ _ (fun r => settled_d (fst r) /\ length (d_devs (fst r)) = S (length (d_devs (lp_d l))))).
    + eapply ends_imp; [apply (calm_ends fuel wr (EvAdd (length (d_devs (lp_d l))) g) ts d0 S0 T0 Logic.I)|auto|intros x Hab; inversion Hab|].
      intros [d' t] E [H _]. split; [exact H|]. cbn [fst]. rewrite <- L0. unfold event_handler in E. cbv zeta in E. cbn [d_devs set_d_times] in E.
      destruct (nth_error _ _); [|discriminate E]. cbn [bind] in E. apply Ok_inj, pair_equal_spec in E as [<- _].
      cbn [d_devs set_d_times set_d_devs]. apply upd_length.
    + intros [d' t] _ [H1 H2]. cbn [ends fst] in *.
      instantiate (1 := fun l' => settled_d (lp_d l') /\ small (lp_de l') /\ length (d_devs (lp_d l')) = S (length (d_devs (lp_d l)))).
      cbn [lp_d lp_de]. auto.
  - intros l1 _ (H1 & H2 & H3). eapply ends_imp; [apply IH; auto|auto| |auto]. intros x [-> Hx]. split; [reflexivity|]. cbn [length]. lia.
Qed.
Lemma round_ends fuel wr r l : settled_d (lp_d l) -> small (lp_de l) -> ordinary r l ->
  ends False (stops r l) (fun l' => settled_d (lp_d l') /\ small (lp_de l')) (loop_round fuel wr r l).
Proof.
  intros Hs Hd [O1 O2 O3]. unfold loop_round. destruct (lp_dead l); [cbn; auto|]. cbv zeta.
  set (ax := map dv_axes (d_devs (lp_d l))).
  assert (A0 : at_ease ax l) by (split; [exact Hs|split; [exact Hd|reflexivity]]).
  assert (HR : forall i a, nth_error ax i = Some a -> Forall (modest a) (r_reads r i)).
  { intros i a H. unfold ax in H. rewrite nth_error_map in H. destruct (nth_error (d_devs (lp_d l)) i) as [dv|] eqn:E; [|discriminate H].
    cbn in H. injection H as <-. now apply O1. }
  eapply (ends_bind _ _ (at_ease ax)).
  { destruct (andb _ _).
    - unfold call. eapply ends_bind.
      + eapply ends_imp; [apply (calm_ends fuel wr EvTimeout (r_stop r) (lp_d l) Hs Logic.I Logic.I)|auto| |intros x _ H; exact H].
        intros x Hab. inversion Hab; subst. now apply stops_engine.
      + intros [d' t] _ [H1 H2]. cbn [ends]. split; [exact H1|]. split; [exact Hd|]. cbn [lp_d fst] in *. now rewrite H2.
    - cbn [ends]. split; [exact Hs|]. split; [exact Hd|reflexivity]. }
  intros l1 _ A1. eapply (ends_bind _ _ (at_ease ax)).
  { eapply ends_imp; [apply (read_devices_ends fuel wr (r_reads r) ax); auto|auto|intros x Hx; now apply stops_engine|auto].
    apply Forall_forall. intros i Hi. apply in_seq in Hi. destruct A1 as (_ & _ & <-). rewrite map_length. lia. }
  intros l2 _ A2. destruct (lp_dead l2); [destruct A2 as (X & Y & _); cbn; auto|].
  eapply (ends_bind _ _ (at_ease ax)).
  { apply clients_ends; auto. intros con m texts grabs Hin H7. eapply stops_text; [exact Hin|exact H7]. }
  intros l3 _ (S3 & D3 & X3). eapply (ends_bind _ _ (fun l' => settled_d (lp_d l') /\ small (lp_de l'))).
  { eapply ends_imp; [apply adds_ends; auto|auto| |auto]. intros x [-> Hx]. apply stops_devices.
    assert (E : length (d_devs (lp_d l3)) = length (d_devs (lp_d l))); [|lia].
    rewrite <- (map_length dv_axes (d_devs (lp_d l3))), X3. unfold ax. apply map_length. }
  intros l4 _ [S4 D4]. cbn [ends]. split; [|exact D4]. cbn [lp_d]. apply settled_devs; [|exact S4].
  intros x Hx. apply filter_In in Hx as [Hx _]. auto.
Qed.
Lemma steady_runs fuel wr l : steady fuel wr l -> runs fuel wr l.
Proof.
  induction 1 as [texts devs grabs ts l Hf H|r l l' H IH [_ _ Ho] Hl]; [eapply runs_start; eauto|eapply runs_round; eauto].
Qed.
Lemma steady_settled fuel wr l : steady fuel wr l -> settled_d (lp_d l) /\ small (lp_de l).
Proof.
  induction 1 as [texts devs grabs ts l Hf H|r l l' H [I1 I2] Ho Hl].
  - assert (R : runs fuel wr l) by (eapply runs_start; eauto). split; [split; [|split]|].
    + apply runs_ptr in R. apply R.
    + eapply start_fit; eauto.
    + unfold start in H. destruct (reload _ _ _) as [d| | |] eqn:Er; cbn [bind] in H; try discriminate H.
      destruct (calls _ _ _ _ _) as [l1| | |] eqn:E; cbn [bind] in H; try discriminate H. apply Ok_inj in H. subst l. cbn [lp_d].
      apply reload_inv in Er as (ents & _ & ->).
      destruct (clear_vkbd_same (reload_base texts grabs (d_init []) ents)) as (A & _).
      apply (calls_at fuel wr (fun d _ => d_gen d = 1%nat) (fun ev => exists i g, ev = EvAdd i g)) in E; [exact E|..].
      * intros ev ts0 d0 d1 t cs (i & g & ->) He G. rewrite <- G. unfold event_handler in He. cbv zeta in He. cbn [d_devs set_d_times] in He.
        destruct (nth_error _ _); [|discriminate He]. cbn [bind] in He. apply Ok_inj, pair_equal_spec in He as [<- _]. reflexivity.
      * apply Forall_forall. intros e He. apply in_map_iff in He as (i & <- & _). eauto.
      * unfold at_l. cbn [lp_d d_gen set_d_devs]. rewrite A. reflexivity.
    + unfold start in H. destruct (reload _ _ _) as [d| | |] eqn:Er; cbn [bind] in H; try discriminate H.
      destruct (calls _ _ _ _ _) as [l1| | |] eqn:E; cbn [bind] in H; try discriminate H. apply Ok_inj in H. subst l. cbn [lp_de].
      assert (G : forall evs l0 l', calls fuel wr evs ts l0 = Ok l' -> lp_de l' = lp_de l0).
      { induction evs as [|e r IH]; cbn [calls]; intros l0 l' X; [apply Ok_inj in X; now subst|].
        destruct (call _ _ _ _ _) as [l2| | |] eqn:Ec; cbn [bind] in X; try discriminate X. rewrite (IH _ _ X). unfold call in Ec.
        destruct (event_handler _ _ _ _ _) as [[d0 t0]| | |]; cbn [bind] in Ec; try discriminate Ec. apply Ok_inj in Ec. now subst l2. }
      apply G in E. rewrite E. discriminate.
  - pose proof (round_ends fuel wr r l I1 I2 Ho) as E. rewrite Hl in E. exact E.
Qed.

Lemma start_ends fuel wr texts devs grabs ts :
  ends (exists pre text post, texts = pre ++ text :: post /\ Forall (fun t => exists o, config_parse t = Ok o) pre /\ config_parse text = UB)
    (fun x => exists pre text post, texts = pre ++ text :: post /\ Forall (fun t => exists o, config_parse t = Ok o) pre /\ config_parse text = Crash x)
    (fun _ => True) (start fuel wr texts devs grabs ts).
Proof.
  unfold start. eapply (ends_bind _ _ (fun _ => True)).
  - unfold reload. pose proof (load_ends texts (d_clock (d_init [])) []) as G.
    destruct (load_files _ _ _) as [ents|x| |]; cbn [bind ends] in *; auto.
  - intros d _ _. set (d0 := set_d_devs devs d).
    assert (G : forall is l, Forall (fun i => (i < length (d_devs (lp_d l)))%nat) is ->
      exists l', calls fuel wr (map (fun i => EvAdd i (grabs i)) is) ts l = Ok l').
    { induction is as [|i is IH]; intros l F; cbn [map calls]; [eauto|]. inversion F as [|? ? F1 F2]; subst.
      unfold call at 1. unfold event_handler. cbv zeta. cbn [d_devs set_d_times].
      destruct (nth_error (d_devs (lp_d l)) i) eqn:En; [|apply nth_error_None in En; lia]. cbn [bind]. apply IH. cbn [lp_d d_devs set_d_times set_d_devs].
      rewrite upd_length. exact F2. }
    destruct (G (seq 0 (length devs)) (mkL d0 0 zero_de (mkPanic 0 0 0) false [] [])) as [l' ->].
    + apply Forall_forall. intros i Hi. apply in_seq in Hi. cbn. lia.
    + exact Logic.I.
Qed.
Lemma start_ub fuel wr texts devs grabs ts pre text post : texts = pre ++ text :: post ->
  Forall (fun t => exists o, config_parse t = Ok o) pre -> config_parse text = UB -> start fuel wr texts devs grabs ts = UB.
Proof. intros E F H. unfold start, reload. now rewrite (load_ub _ _ _ _ _ E F H). Qed.
