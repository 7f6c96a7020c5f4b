(* C26 (layer activations are accounted for), C13 (a toggled layer stays), C05 (second
   part: no abnormal stop for the restricted configurations). *)
From Coq Require Import String.
From Verif Require Import Base Lib Keys Types MacroExec Kbd Config Steps Hist SpecTrace SpecMods SpecLookup
  SpecHist SpecActions SpecKept SpecAccount TraceProofs ModsProofs LookupProofs Engine SpecWf Wf ParseWf WfHist ActProofs
  StepProofs OneProofs CacheProofs Inv ClassInv KeptProofs Account NoAbort ExTools.
Local Open Scope list_scope.
Local Open Scope nat_scope.
Local Notation length := List.length.

Lemma reach_G (G : config -> Prop) c k : reach G c k -> G (k_cfg k).
Proof.
  induction 1 as [clk|k fuel evs k' t Hr IG H|k exp k' ok Hr IG H HG|k k' Hr IG H]; auto.
  - apply kbd_process_events_steps, steps_cfg in H as [-> _]. exact IG.
  - destruct H; exact IG.
Qed.

(* ---- C26 ------------------------------------------------------------------------- *)
(* Whatever happened since the start, the activation count of a layer (not a layout)
   is what its toggle, its pending oneshots and the held keys account for, counted in
   one byte. *)
Theorem C26_count :
  forall T K c k i, reach (tame T K) c k -> ~ layout (k_cfg k) i ->
  count k i = (outstanding k i mod 256)%N.
Proof.
  intros T K c k i Hr Hl. apply (reach_count T K i) with (c := c); auto.
  destruct (K i) eqn:E; auto. exfalso. apply Hl. now apply (tm_layouts _ _ _ (reach_G _ _ _ Hr)).
Qed.
(* Nothing outstanding: inactive. *)
Theorem C26_inactive :
  forall T K c k i, reach (tame T K) c k -> ~ layout (k_cfg k) i ->
  toggled k i = false -> oneshots k i = 0%N ->
  (forall e, In e (k_cache k) -> ce_code e <> 0%N -> holds (ce_d e) i = false) -> ~ on k i.
Proof.
  intros T K c k i Hr Hl Ht Ho Hh. unfold on.
  change (l_active (k_ls k i)) with (count k i). rewrite (C26_count T K c k i Hr Hl).
  assert (holding k i = 0).
  { unfold holding. destruct (filter _ (k_cache k)) as [|e l] eqn:E; auto. exfalso.
    assert (In e (e :: l)) as X by now left. rewrite <- E in X. apply filter_In in X as [X1 X2].
    apply andb_true_iff in X2 as [X2 X3]. rewrite (Hh e X1) in X3; [discriminate|].
    intros Y. rewrite Y in X2. discriminate. }
  unfold outstanding. rewrite Ht, Ho, H. cbn. intros X. now apply X.
Qed.
(* Something outstanding (at most 255 of them): active. *)
Theorem C26_active :
  forall T K c k i, reach (tame T K) c k -> ~ layout (k_cfg k) i ->
  (0 < outstanding k i < 256)%N -> on k i.
Proof.
  intros T K c k i Hr Hl Ho. unfold on. change (l_active (k_ls k i)) with (count k i).
  rewrite (C26_count T K c k i Hr Hl), N.mod_small; lia.
Qed.

(* ---- C13, third part --------------------------------------------------------------- *)
Theorem C13_toggled_active :
  forall T K c k i, reach (tame T K) c k -> ~ layout (k_cfg k) i ->
  toggled k i = true -> (outstanding k i < 256)%N -> on k i.
Proof.
  intros T K c k i Hr Hl Ht Ho. apply (C26_active T K c); auto. split; auto.
  unfold outstanding. rewrite Ht. lia.
Qed.

Lemma rel_toggled fuel k code d dl time k' : (forall l a, d <> DOverload l a) ->
  process_descriptor fuel k code d dl false time = Ok k' -> forall i, toggled k' i = toggled k i.
Proof.
  intros Hd H i. unfold toggled. destruct fuel as [|fuel]; [discriminate|]. cbn [process_descriptor] in H.
  unfold pre_macro in H. cbn [bind] in H.
  assert (DA : forall l x k1, deactivate_layer k l = Ok x -> k1 = x -> l_toggled (k_ls k1 i) = l_toggled (k_ls k i)).
  { intros l x k1 E ->. apply deactivate_ok in E as [_ [b ->]]. cbn. unfold nupd.
    destruct (Nat.eqb_spec i l) as [Ei|Ei]; [subst l|]; reflexivity. }
  assert (DEP : forall j x, l_toggled (nupd (k_ls k) j (set_l_depth x (k_ls k j)) i) = l_toggled (k_ls k i)).
  { intros j x. unfold nupd. destruct (Nat.eqb_spec i j) as [Ei|Ei]; [subst j|]; reflexivity. }
  assert (LAY : forall l, pd_layer k code l false = Ok k' -> l_toggled (k_ls k' i) = l_toggled (k_ls k i)).
  { intros l X. unfold pd_layer in X. bstep X k1 Ea. apply Ok_inj in X; subst. rewrite um_ls. eapply DA; eauto. }
  assert (ONE : forall l, pd_oneshot k code l dl false time = Ok k' -> l_toggled (k_ls k' i) = l_toggled (k_ls k i)).
  { intros l X. unfold pd_oneshot in X. destruct (k_latch k).
    - bstep X u Ea. cbv zeta in X. destruct (_ =? _)%Z.
      + apply Ok_inj in X; subst. cbn. apply DEP.
      + apply schedule_ok in X. subst. cbn. apply DEP.
    - bstep X k1 Ea. apply Ok_inj in X; subst. rewrite um_ls. eapply DA; eauto. }
  assert (SW : forall l mm, pd_swap k l dl mm false = Ok k' -> l_toggled (k_ls k' i) = l_toggled (k_ls k i)).
  { intros l mm X. unfold pd_swap in X. apply Ok_inj in X; subst.
    destruct mm as [[|[[] data] [|? ?]]|]; auto. now rewrite um_ls, sk_ls. }
  destruct d; try (apply Ok_inj in H; now subst); try (exfalso; eapply Hd; reflexivity);
    bstep H k1 Eb; apply Ok_inj in H; subst k1; eauto.
  - unfold pd_key in Eb. cbn [bind] in Eb. apply Ok_inj in Eb; subst.
    destruct (_ || _); kcbn; now rewrite um_ls, sk_ls.
  - bstep Eb mm Ec. eauto.
Qed.
(* The release of a key leaves every toggle as it is, unless the key is an overload key
   (whose tap may perform a toggle action). *)
Theorem C13_release_keeps :
  forall fuel k code time k' t, no_chord k code -> passes_pending k code false ->
  (forall e l a, In e (k_cache k) -> ce_code e = code -> ce_d e <> DOverload l a) ->
  process_event fuel k code false time = Ok (k', t) ->
  forall i, is_layer k i -> toggled k' i = toggled k i.
Proof.
  intros fuel k code time k' t Hc Hp Ho H i Hi. destruct fuel as [|fuel]; [discriminate|].
  apply process_event_open in H as [k1 [Er H]]; auto. inversion H; subst; clear H. change (toggled k1 i = toggled (chord_seen k code false time) i).
  assert (Hi0 : is_layer (chord_seen k code false time) i) by exact Hi.
  assert (Ho0 : forall e l a, In e (k_cache (chord_seen k code false time)) -> ce_code e = code -> ce_d e <> DOverload l a) by exact Ho.
  set (k0 := chord_seen k code false time) in *. clearbody k0. clear Hc Hp Ho Hi k. unfold rest_step in Er.
  bstep Er k3 E3. bstep Er k4 E4.
  pose proof (expire_cp _ _ _ E3) as [_ C3]. pose proof (run_macro_cp _ _ _ _ E4) as [_ C4].
  assert (T3 : toggled k3 i = toggled k0 i).
  { unfold expire_oneshot in E3. destruct (_ && _); [|apply Ok_inj in E3; now subst].
    bstep E3 k2 Ea. apply Ok_inj in E3; subst. unfold toggled. rewrite um_ls.
    apply clear_oneshot_ok in Ea as [ls [ns [-> [_ [A _]]]]]. kcbn. destruct (A i Hi0) as [-> _]. reflexivity. }
  assert (T4 : toggled k4 i = toggled k3 i).
  { unfold run_active_macro in E4. destruct (k_amacro k3); [|apply Ok_inj in E4; now subst].
    destruct (negb _); [apply Ok_inj in E4; subst; unfold toggled; now rewrite um_ls|].
    destruct (_ <=? _)%Z; [|apply Ok_inj in E4; now subst].
    bstep E4 mm Ea. apply schedule_ok in E4. subst. unfold toggled. cbn. now rewrite em_ls. }
  rewrite <- T3, <- T4. unfold handle_key in Er. destruct (N.eqb_spec code 0); [apply Ok_inj in Er; now subst|].
  destruct (cache_get k4 code) as [j|] eqn:Eg; [|apply Ok_inj in Er; now subst].
  apply cache_find_at in Eg as [_ [Eg1 Eg2]]. rewrite Nat.sub_0_r in *.
  destruct (cache_set _ _ _) as [k5|] eqn:E5; [|apply Ok_inj in Er; now subst].
  unfold do_desc in Er. erewrite rel_toggled; [| |exact Er].
  - apply cache_set_spec in E5 as [x [e [-> _]]]. reflexivity.
  - intros l a. unfold cache_nth. apply Ho0; [|exact Eg2]. rewrite <- C3, <- C4. apply nth_In, Eg1.
Qed.

(* ---- C05, second part ---------------------------------------------------------------- *)
(* Configurations of key sequences, layer, layout, toggle, oneshot, overload,
   overloadi, clear, command and scroll actions: as long as fewer than 255 activations of any one layer are
   outstanding, no batch of events stops abnormally. *)
Theorem C05_no_abort :
  forall T K text c k fuel evs x,
  config_parse text = Ok (Some c) -> reach (calm T K) c k ->
  (forall k', along fuel k evs k' -> forall i, ~ layout (k_cfg k') i -> (outstanding k' i < 255)%N) ->
  kbd_process_events fuel k evs <> Crash x.
Proof.
  intros T K text c k fuel evs x Hc Hr Ho Hx. apply config_parse_inv in Hc.
  pose proof (loop_nc T K c Hc fuel fuel k evs 0%Z 0%Z Hr) as X.
  unfold kbd_process_events in Hx. rewrite Hx in X. apply X.
  intros k' Hs i Ki. apply Ho; [exact Hs|]. intros Hl.
  pose proof (reach_G _ _ _ (along_reach T K c fuel k evs k' Hr Hs)) as G.
  apply (tm_layouts _ _ _ (cm_tame _ _ _ G)) in Hl. congruence.
Qed.
(* the same for a single event: only the current state matters *)
Theorem C05_no_abort_event :
  forall T K text c k fuel code pressed time x,
  config_parse text = Ok (Some c) -> reach (calm T K) c k ->
  (forall i, ~ layout (k_cfg k) i -> (outstanding k i < 255)%N) ->
  process_event fuel k code pressed time <> Crash x.
Proof.
  intros T K text c k fuel code pressed time x Hc Hr Ho Hx. apply config_parse_inv in Hc.
  pose proof (event_nc T K c k fuel code pressed time Hc Hr) as X. rewrite Hx in X. apply X.
  intros i Ki. apply Ho. intros Hl.
  pose proof (reach_G _ _ _ Hr) as G. apply (tm_layouts _ _ _ (cm_tame _ _ _ G)) in Hl. congruence.
Qed.

(* ---- examples and limits ------------------------------------------------------------- *)
Definition tame_descb (c : config) (d : desc) : bool :=
  let T a := nth a (c_descs c) DNone in
  match d with
  | DSwap _ | DSwapM _ _ => false
  | DOverload _ a => negb (pending_kind (T a)) && negb (is_overloadi (T a))
  | DOverloadI a b _ => negb (is_overloadi (T a)) && negb (is_overloadi (T b))
  | DLayout l => is_layout (ly_type (nth l (c_layers c) zero_layer))
  | _ => true
  end.
Definition nested_of (c : config) (a : nat) : desc := nth a (c_descs c) DNone.
Definition layouts_of (c : config) (i : nat) : bool := is_layout (ly_type (nth i (c_layers c) zero_layer)).
Lemma tame_descb_ok c d : tame_descb c d = true -> tame_desc (nested_of c) (layouts_of c) d.
Proof.
  destruct d; cbn [tame_descb tame_desc]; auto; try discriminate;
    rewrite ?andb_true_iff, ?negb_true_iff; auto.
Qed.
Definition tameb (c : config) : bool := layouts_of c 0 && cfg_allb (tame_descb c) c.
Lemma tameb_ok c : inv c -> tameb c = true -> tame (nested_of c) (layouts_of c) c.
Proof.
  intros Hi H. apply andb_true_iff in H as [H0 H]. apply (cfg_allb_ok _ _ _ Hi (tame_descb_ok c)) in H.
  destruct H as [A1 [A2 A3]]. constructor; auto.
  intros i. unfold layout, layouts_of. now destruct (ly_type _).
Qed.
Definition calm_descb (c : config) (d : desc) : bool :=
  match d with
  | DSwap _ | DSwapM _ _ | DOverloadT _ _ _ | DOverloadT2 _ _ _ | DTimeout _ _ _ | DMacro _ | DMacro2 _ _ _ => false
  | DLayer l | DLayerM l _ | DOneshot l | DOneshotM l _ | DToggle l | DToggleM l _ | DOverload l _ => negb (layouts_of c l)
  | _ => true
  end.
Definition calmb (c : config) : bool :=
  tameb c && cfg_allb (calm_descb c) c
  && forallb (fun l => match ly_chords l with [] => true | _ => false end) (c_layers c) && (c_oneshot_timeout c =? 0)%Z.
Lemma calmb_ok c : inv c -> calmb c = true -> calm (nested_of c) (layouts_of c) c.
Proof.
  intros Hi H. unfold calmb in H. rewrite !andb_true_iff in H. destruct H as [[[H1 H2] H3] H4].
  assert (X : forall d, calm_descb c d = true -> calm_desc (layouts_of c) d).
  { intros d. destruct d; cbn [calm_descb calm_desc]; rewrite ?negb_true_iff; auto; discriminate. }
  apply (cfg_allb_ok _ _ _ Hi X) in H2 as [A1 [A2 A3]]. constructor; auto.
  - now apply tameb_ok.
  - intros i. destruct (Nat.lt_ge_cases i (length (c_layers c))) as [L|L].
    + rewrite forallb_forall in H3. specialize (H3 _ (nth_In _ zero_layer L)). now destruct (ly_chords _).
    + now rewrite nth_overflow.
  - now apply Z.eqb_eq.
Qed.
Definition ex26_text : str := bs "[main]
a = layer(nav)
s = oneshot(nav)
d = toggle(nav)
f = overload(nav, toggle(nav))
g = layer(control)
[nav]
h = left
j = overloadi(x, layer(nav), 100)
".
Definition ex26_cfg : config := cfg_of ex26_text.
Lemma ex26_parses : config_parse ex26_text = Ok (Some ex26_cfg).
Proof. apply parsesb_ok. vm_compute. reflexivity. Qed.
Lemma ex26_calm : calm (nested_of ex26_cfg) (layouts_of ex26_cfg) ex26_cfg.
Proof. apply calmb_ok; [apply (config_parse_inv _ _ ex26_parses)|]. vm_compute. reflexivity. Qed.
Lemma ex26_reach k : run_to ex26_cfg k -> reach (calm (nested_of ex26_cfg) (layouts_of ex26_cfg)) ex26_cfg k.
Proof. apply run_to_reach, ex26_calm. Qed.
Lemma ex26_reach_tame k : run_to ex26_cfg k -> reach (tame (nested_of ex26_cfg) (layouts_of ex26_cfg)) ex26_cfg k.
Proof. intros H. eapply reach_weaken; [|apply ex26_reach, H]. intros c. apply cm_tame. Qed.

(* nav toggled, once oneshot, once held: three activations *)
Example C26_example :
  exists k, reach (tame (nested_of ex26_cfg) (layouts_of ex26_cfg)) ex26_cfg k
    /\ ly_type (nth 6 (c_layers (k_cfg k)) zero_layer) <> LLayout
    /\ toggled k 6 = true /\ oneshots k 6 = 1%N /\ holding k 6 = 1 /\ count k 6 = 3%N.
Proof.
  destruct (check_run_ok ex26_cfg [[D 30 10; D 32 20; U 32 30; D 31 40; U 31 50]]
    (fun k => negb (is_layout (ly_type (nth 6 (c_layers (k_cfg k)) zero_layer))) && toggled k 6
       && (oneshots k 6 =? 1)%N && Nat.eqb (holding k 6) 1 && (count k 6 =? 3)%N)) as [k [H1 H2]].
  - vm_compute. reflexivity.
  - exists k. rewrite !andb_true_iff, negb_true_iff, !N.eqb_eq, Nat.eqb_eq in H2. destruct H2 as [[[[X1 X2] X3] X4] X5].
    split; [apply ex26_reach_tame, H1|]. split; [|auto]. intros Y. rewrite Y in X1. discriminate.
Qed.
(* ... and everything undone again: inactive *)
Example C26_inactive_example :
  exists k, reach (tame (nested_of ex26_cfg) (layouts_of ex26_cfg)) ex26_cfg k
    /\ toggled k 6 = false /\ oneshots k 6 = 0%N /\ holding k 6 = 0
    /\ count k 6 = 0%N /\ 8 <= length (k_out k).
Proof.
  destruct (check_run_ok ex26_cfg [[D 30 10; D 32 20; U 32 30; D 31 40; U 31 50; U 30 60; D 32 70; U 32 80; D 45 90; U 45 100]]
    (fun k => negb (toggled k 6) && (oneshots k 6 =? 0)%N && Nat.eqb (holding k 6) 0
     && (count k 6 =? 0)%N && Nat.leb 8 (length (k_out k)))) as [k [H1 H2]].
  - vm_compute. reflexivity.
  - exists k. rewrite !andb_true_iff, negb_true_iff, !N.eqb_eq, Nat.eqb_eq, Nat.leb_le in H2. destruct H2 as [[[[X1 X2] X3] X4] X5].
    split; [apply ex26_reach_tame, H1|]. auto.
Qed.

(* a key released while nav is toggled *)
Example C13_release_example :
  exists k k' t, reach (tame (nested_of ex26_cfg) (layouts_of ex26_cfg)) ex26_cfg k
    /\ no_chord k 30%N /\ passes_pending k 30%N false /\ is_layer k 6
    /\ (forall e l a, In e (k_cache k) -> ce_code e = 30%N -> ce_d e <> DOverload l a)
    /\ process_event 20 k 30%N false 100%Z = Ok (k', t) /\ toggled k 6 = true /\ count k 6 = 2%N
    /\ toggled k' 6 = true /\ count k' 6 = 1%N.
Proof.
  destruct (event_ex ex26_cfg [[D 30 10; D 32 20; U 32 30]] 30%N false 100%Z
    (fun k k' t => Nat.ltb 6 (length (c_layers (k_cfg k))) && toggled k 6 && (count k 6 =? 2)%N && toggled k' 6
       && (count k' 6 =? 1)%N
       && forallb (fun e => negb (ce_code e =? 30)%N || match ce_d e with DOverload _ _ => false | _ => true end) (k_cache k)))
    as [k [k' [t [H0 [_ [H2 [H3 [H4 H5]]]]]]]]; [vm_compute; reflexivity|].
  rewrite !andb_true_iff, Nat.ltb_lt, !N.eqb_eq, forallb_forall in H5. destruct H5 as [[[[[X1 X2] X3] X4] X5] X6].
  exists k, k', t. split; [apply ex26_reach_tame, H0|]. split; [split; [apply H2|now right]|].
  split; [left; apply H2|]. split; [exact X1|]. split; [|auto 10].
  intros e l a He Hc Hd. specialize (X6 e He). rewrite Hc, Hd in X6. discriminate.
Qed.
(* the bound on outstanding activations is met by ordinary states *)
Lemma small_states c clk k : inv c -> history c clk k ->
  forallb (fun i => (oneshots k i <? 200)%N) (seq 0 (length (c_layers (k_cfg k)))) = true ->
  forall i, (outstanding k i < 255)%N.
Proof.
  intros Hi Hh H i. pose proof (history_wf _ _ _ Hi Hh) as W. rewrite forallb_forall in H.
  assert (H1 : (oneshots k i < 200)%N).
  { destruct (N.eqb_spec (oneshots k i) 0) as [->|Hn]; [lia|].
    apply N.ltb_lt, H, in_seq. pose proof (proj1 (wk_flags _ W i (or_intror Hn))). lia. }
  assert (H2 : holding k i <= 16).
  { unfold holding. rewrite <- (wk_cache_len _ W). induction (k_cache k) as [|e l IH]; [cbn; lia|].
    cbn [filter]. destruct (_ && _); cbn [length]; lia. }
  unfold outstanding. destruct (toggled k i); lia.
Qed.
Example C05_no_abort_example :
  exists k k' t, reach (calm (nested_of ex26_cfg) (layouts_of ex26_cfg)) ex26_cfg k
    /\ (forall i, ~ layout (k_cfg k) i -> (outstanding k i < 255)%N)
    /\ process_event 20 k 33%N true 100%Z = Ok (k', t) /\ count k' 6 = 4%N.
Proof.
  destruct (event_ex ex26_cfg [[D 30 10; D 32 20; U 32 30; D 31 40; U 31 50]] 33%N true 100%Z
    (fun k k' t => forallb (fun i => (oneshots k i <? 200)%N) (seq 0 (length (c_layers (k_cfg k)))) && (count k' 6 =? 4)%N))
    as [k [k' [t [H0 [_ [H2 [H3 [H4 H5]]]]]]]]; [vm_compute; reflexivity|].
  apply andb_true_iff in H5 as [X1 X2]. pose proof (ex26_reach _ H0) as R.
  exists k, k', t. split; [exact R|]. split; [|split; [exact H4|now apply N.eqb_eq]].
  destruct (reach_history _ _ _ _ R) as [clk Hh]. intros i _.
  exact (small_states _ _ _ (config_parse_inv _ _ ex26_parses) Hh X1 i).
Qed.

(* The bound is needed: after 255 oneshot taps the press of a layer key wraps the count
   to 0 and its release stops the daemon, in the same configuration. *)
Fixpoint shots (n : nat) (t : Z) : list kev :=
  match n with O => [] | S n' => D 31 t :: U 31 (t + 1)%Z :: shots n' (t + 2)%Z end.
Theorem C05_255_refuted :
  exists k, reach (calm (nested_of ex26_cfg) (layouts_of ex26_cfg)) ex26_cfg k
    /\ oneshots k 6 = 255%N /\ kbd_process_events 20 k [D 30 1000; U 30 1001] = Crash CLayerInactive.
Proof.
  destruct (check_run_ok ex26_cfg [shots 85 1; shots 85 200; shots 85 400]
    (fun k => (oneshots k 6 =? 255)%N && stopb (kbd_process_events 20 k [D 30 1000; U 30 1001]) CLayerInactive)) as [k [H1 H2]].
  - vm_compute. reflexivity.
  - exists k. apply andb_true_iff in H2 as [X1 X2]. split; [apply ex26_reach, H1|].
    split; [now apply N.eqb_eq|now apply stopb_ok].
Qed.
(* swap onto a toggled layer, overload of an overloadi: an activation is left that nothing accounts for *)
Definition ex26b_text : str := bs "[main]
a = toggle(nav)
s = layer(sym)
f = overload(nav, overloadi(layer(sym), layer(sym), 100))
g = toggle(sym)
[nav]
q = swap(sym)
[sym]
".
Definition ex26b_cfg : config := cfg_of ex26b_text.
Definition stray (batches : list (list kev)) : Prop :=
  exists k, run_to ex26b_cfg k /\ ~ layout (k_cfg k) 7 /\ count k 7 <> (outstanding k 7 mod 256)%N
    /\ run_batches (new_keyboard ex26b_cfg 1) batches = Some k.
Lemma stray_check b : check_run ex26b_cfg b (fun k => negb (layouts_of (k_cfg k) 7) && negb (count k 7 =? outstanding k 7 mod 256)%N) = true ->
  stray b.
Proof.
  intros H. unfold check_run in H. destruct (run_batches _ _) as [k|] eqn:Eb; [|discriminate].
  rewrite andb_true_iff, !negb_true_iff, N.eqb_neq in H. destruct H as [X1 X2].
  exists k. split; [|split; [|split; [exact X2|exact Eb]]].
  - eapply run_batches_reach; [|exact Eb]. apply run_init. lia.
  - intros Y. unfold layouts_of in X1. unfold layout in Y. rewrite Y in X1. discriminate.
Qed.
Theorem C26_swap_refuted : stray [[D 34 10; U 34 20; D 30 30; U 30 40; D 16 50; U 16 60]].
Proof. apply stray_check. vm_compute. reflexivity. Qed.
Theorem C26_overload_overloadi_refuted : stray [[D 33 10; U 33 20]].
Proof. apply stray_check. vm_compute. reflexivity. Qed.

Definition C26_all := (C26_count, C26_inactive, C26_active, C13_toggled_active, C13_release_keeps, C05_no_abort,
  C05_no_abort_event, C05_255_refuted, C26_swap_refuted, C26_overload_overloadi_refuted).
Print Assumptions C26_all.
