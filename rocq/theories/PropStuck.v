(* C25 (nothing stays pressed once all keys are released). *)
From Coq Require Import String.
From Verif Require Import Base Lib Keys Types MacroExec MacroParse Kbd Config Steps Hist Outside SpecTrace SpecMods SpecLookup
  SpecHist SpecActions SpecKept SpecDefer SpecNotation SpecAccount SpecStuck TraceProofs ModsProofs LookupProofs Engine SpecWf Wf ParseWf WfHist
  ActProofs StepProofs OneProofs CacheProofs Inv ClassInv KeptProofs MacroProofs NotationProofs Account StuckProofs StuckLife MacroLife NoAbort ExTools PropAccount PropNotation PropDefer.
Local Open Scope list_scope.
Local Open Scope nat_scope.
Local Notation length := List.length.

(* Every macro that a parsed configuration can come to contain, also by later rebinding,
   lets go of every key it presses. *)
Theorem C25_macros : forall G text c k m, config_parse text = Ok (Some c) -> reach G c k -> In m (c_macros (k_cfg k)) -> lets_go m.
Proof. intros G text c k m Hp Hr. apply (reach_let_go G c k (parsed_let_go _ _ Hp) Hr). Qed.
(* As soon as no key is remembered as held and no layer is toggled or waiting as
   oneshot, no key is down on the virtual keyboard. *)
Theorem C25_no_stuck :
  forall T K M tg text c k, config_parse text = Ok (Some c) -> reach (neat T K M tg) c k -> none_held k -> layers_idle k ->
  forall code, host_down (k_out k) code = false.
Proof.
  intros T K M tg text c k Hp Hr Hn Hl code. pose proof (reach_J _ _ _ _ _ _ Hr) as Jk.
  assert (Ks : k_ks k code = false).
  { apply (nothing_down _ _ _ _ _ Jk Hn). intros i [Hi Ha]. destruct (K i) eqn:Ek; auto. exfalso.
    assert (Ht : reach (tame T K) c k) by (eapply reach_weaken; [|exact Hr]; intros ? X; apply X).
    destruct (Hl i Hi) as [L1 L2]. apply (C26_inactive T K c k i Ht); auto.
    - intros X. apply (tm_layouts _ _ _ (reach_G _ _ _ Ht)) in X. congruence.
    - intros e He Hz. elim Hz. now apply Hn. }
  destruct (host_down (k_out k) code) eqn:E; auto.
  rewrite <- Ks. symmetry. destruct (reach_let_go _ _ _ (parsed_let_go _ _ Hp) Hr) as [Hr2 _].
  apply (reach_under _ c k code) in Hr2; auto. intros c0 [_ X]. exact X.
Qed.
(* Without chords, and if undecided keys have actions to choose from: once all physical
   keys are released, the engine remembers no key as held ... *)
Theorem C25_none_held :
  forall T K M tg n c k evs, fed (sound T K M tg n) c k evs -> hands_off evs -> none_held k.
Proof. exact fed_none_held. Qed.
(* ... so no key is down on the virtual keyboard unless a layer is toggled or waiting. *)
Theorem C25_released :
  forall T K M tg n text c k evs, config_parse text = Ok (Some c) -> fed (sound T K M tg n) c k evs -> hands_off evs -> layers_idle k ->
  forall code, host_down (k_out k) code = false.
Proof.
  intros T K M tg n text c k evs Hp Hf Hh Hl. apply (C25_no_stuck T K M tg text c k); auto.
  - eapply reach_weaken; [|eapply fed_reach, Hf]. intros ? X. apply X.
  - eapply fed_none_held; eauto.
Qed.
(* A key that is not physically down is not remembered as held by the engine
   (unless its release waits behind an undecided key). *)
Theorem C25_follows :
  forall T K M tg n c k evs e, fed (sound T K M tg n) c k evs -> In e (k_cache k) -> ce_code e <> 0%N ->
  finger (ce_code e) evs = true \/ exists r, In r (p_queue (k_pend k)) /\ ev_code r = ce_code e /\ ev_pressed r = false.
Proof.
  intros T K M tg n c k evs e Hf He Hz.
  destruct (existsb (fun r => (ev_code r =? ce_code e)%N && negb (ev_pressed r)) (p_queue (k_pend k))) eqn:Ex.
  - right. apply existsb_exists in Ex as [r [H1 H2]]. rewrite andb_true_iff, negb_true_iff, N.eqb_eq in H2. destruct H2. eauto.
  - left. apply (fed_st _ _ _ _ _ _ _ _ _ Hz Hf). unfold st.
    assert (Hb : hasb (ce_code e) k = true).
    { unfold hasb. apply existsb_exists. exists (ce_code e, ce_d e). split; [|apply N.eqb_refl].
      unfold cds. apply in_map_iff. eauto. }
    rewrite Hb. clear - Ex. induction (p_queue (k_pend k)) as [|r q IH]; auto. cbn [existsb] in Ex.
    apply orb_false_iff in Ex as [E1 E2]. cbn [fate fold_left]. destruct (ev_code r =? ce_code e)%N; auto.
    cbn [andb] in E1. apply negb_false_iff in E1. rewrite E1. now apply IH.
Qed.
(* ---- deciders ---------------------------------------------------------------------------- *)
Definition mods_of (c : config) (i : nat) : N := ly_mods (nth i (c_layers c) zero_layer).
Definition neat_descb (c : config) (tg : bool) (d : desc) : bool :=
  match d with
  | DClearM _ => false
  | DOverload _ a => negb (is_macro (nested_of c a))
  | DToggle _ | DToggleM _ _ => tg
  | DOneshot l | DOneshotM l _ => negb tg || (mods_of c l =? 0)%N
  | _ => true
  end.
Definition neatb (c : config) (tg : bool) : bool :=
  tameb c && cfg_allb (neat_descb c tg) c 
  && forallb (fun l => negb (is_layout (ly_type l)) || (ly_mods l =? 0)%N) (c_layers c).
Lemma neatb_ok c tg : inv c -> neatb c tg = true -> neat (nested_of c) (layouts_of c) (mods_of c) tg c.
Proof.
  intros Hi H. unfold neatb in H. rewrite !andb_true_iff in H. destruct H as [[H1 H2] H4].
  assert (X : forall d, neat_descb c tg d = true -> neat_desc (nested_of c) (mods_of c) tg d).
  { intros d. destruct d; cbn [neat_descb neat_desc]; rewrite ?negb_true_iff, ?orb_true_iff, ?negb_true_iff, ?N.eqb_eq; auto; try discriminate.
    all: intros [->|E]; [discriminate|auto]. }
  apply (cfg_allb_ok _ _ _ Hi X) in H2 as [A1 [A2 A3]]. constructor; auto.
  - now apply tameb_ok.
  - intros i Hk. unfold layouts_of in Hk. unfold mods_of. rewrite forallb_forall in H4.
    destruct (nth_in_or_default i (c_layers c) zero_layer) as [Y|Y]; [|now rewrite Y].
    specialize (H4 _ Y). rewrite Hk in H4. now apply N.eqb_eq.
Qed.
Definition firm_descb (c : config) (d : desc) : bool :=
  match d with
  | DOverloadT _ a _ | DOverloadT2 _ a _ => (a <? length (c_descs c)) && has_op (nested_of c a)
  | DTimeout a _ b => (a <? length (c_descs c)) && has_op (nested_of c a) && (b <? length (c_descs c)) && has_op (nested_of c b)
  | _ => true
  end.
Definition firmb (c : config) : bool := chordlessb c && cfg_allb (firm_descb c) c.
Lemma has_op_ok d : has_op d = true -> d <> DNone.
Proof. now intros H ->. Qed.
Lemma firmb_ok c : inv c -> firmb c = true -> firm (nested_of c) (length (c_descs c)) c.
Proof.
  intros Hi H. apply andb_true_iff in H as [H1 H2].
  assert (X : forall d, firm_descb c d = true -> firm_desc (nested_of c) (length (c_descs c)) d).
  { intros d. destruct d; cbn [firm_descb firm_desc]; auto; rewrite !andb_true_iff, ?Nat.ltb_lt.
    - intros [Y1 Y2]. auto using has_op_ok.
    - intros [Y1 Y2]. auto using has_op_ok.
    - intros [[[Y1 Y2] Y3] Y4]. auto using has_op_ok. }
  apply (cfg_allb_ok _ _ _ Hi X) in H2 as [A1 [_ A3]]. constructor; auto. now apply chordlessb_ok.
Qed.
(* a run of batches from the start, with all keys up at the end *)
Lemma fed_batches (G : config -> Prop) c : forall b k k' before, fed G c k before ->
  run_batches k b = Some k' -> fed G c k' (before ++ concat b).
Proof.
  induction b as [|evs b IH]; cbn [run_batches concat]; intros k k' before Hf H.
  - injection H as <-. now rewrite app_nil_r.
  - destruct (kbd_process_events 200 k evs) as [[k1 t]| | |] eqn:E; [|discriminate H..].
    apply (IH _ _ (before ++ evs)) in H; [|exact (fed_events G c k before 200 evs k1 t Hf E)]. now rewrite app_assoc.
Qed.
Definition hands_offb (evs : list kev) : bool := forallb (fun e => negb (finger (ev_code e) evs)) evs.
Lemma hands_offb_ok evs : hands_offb evs = true -> hands_off evs.
Proof.
  unfold hands_offb. intros H x Hx. rewrite forallb_forall in H.
  destruct (finger x evs) eqn:E; auto. exfalso.
  assert (X : exists e, In e evs /\ ev_code e = x).
  { clear H. unfold finger in E. induction evs as [|e evs IH] using rev_ind; [discriminate E|].
    rewrite fold_left_app in E. cbn [fold_left] in E. destruct (N.eqb_spec (ev_code e) x) as [Y|Y].
    - exists e. split; auto. apply in_app_iff. right. now left.
    - destruct (IH E) as [e' [H1 H2]]. exists e'. split; auto. apply in_app_iff. now left. }
  destruct X as [e [X1 <-]]. specialize (H e X1). rewrite E in H. discriminate.
Qed.
Definition idle_layersb (k : kbd) : bool :=
  forallb (fun i => negb (toggled k i) && (oneshots k i =? 0)%N) (seq 0 (length (c_layers (k_cfg k)))).
Lemma idle_layersb_ok k : idle_layersb k = true -> layers_idle k.
Proof.
  unfold idle_layersb. rewrite forallb_forall. intros H i Hi.
  assert (X : In i (seq 0 (length (c_layers (k_cfg k))))) by (apply in_seq; unfold is_layer in Hi; lia).
  specialize (H i X). rewrite andb_true_iff, negb_true_iff, N.eqb_eq in H. exact H.
Qed.
Definition endsb (c : config) (b : list (list kev)) (f : kbd -> bool) : bool :=
  hands_offb (concat b) && check_run c b (fun k => idle_layersb k && f k).
Lemma endsb_ok (G : config -> Prop) c b f : G c -> endsb c b f = true ->
  exists k, fed G c k (concat b) /\ hands_off (concat b) /\ layers_idle k /\ f k = true.
Proof.
  intros Hg H. apply andb_true_iff in H as [H1 H2]. unfold check_run in H2.
  destruct (run_batches _ b) as [k|] eqn:E; [|discriminate H2]. apply andb_true_iff in H2 as [H2 H3].
  exists k. split; [|auto using hands_offb_ok, idle_layersb_ok].
  change (concat b) with ([] ++ concat b). eapply fed_batches; [|exact E]. apply fed_init; auto. lia.
Qed.

(* ---- examples ------------------------------------------------------------------------------ *)
Definition ex25_text : str := bs "[main]
a = layer(nav)
b = overload(nav, C-x)
c = overloadt(control, y, 200)
d = timeout(j, 100, layer(shift))
e = oneshot(shift)
f = macro(C-x y)
m = layout(other)
[nav]
x = C-left
y = overloadi(z, layer(alt), 100)
[other:layout]
x = y
".
Definition ex25_cfg : config := cfg_of ex25_text.
Lemma ex25_parses : config_parse ex25_text = Ok (Some ex25_cfg).
Proof. apply parsesb_ok. vm_compute. reflexivity. Qed.
Definition sound_of (c : config) (tg : bool) : config -> Prop :=
  sound (nested_of c) (layouts_of c) (mods_of c) tg (length (c_descs c)).
Lemma sound_check c tg : inv c -> neatb c tg = true -> firmb c = true -> sound_of c tg c.
Proof. intros H1 H2 H3. split; [now apply neatb_ok|now apply firmb_ok]. Qed.
Lemma ex25_sound : sound_of ex25_cfg false ex25_cfg.
Proof. apply sound_check; [apply (config_parse_inv _ _ ex25_parses)| |]; vm_compute; reflexivity. Qed.
(* every action used, keys overlapping, all released at the end *)
Example C25_example :
  exists k evs, fed (sound_of ex25_cfg false) ex25_cfg k evs /\ hands_off evs /\ layers_idle k
    /\ 20 <= length evs /\ 30 <= length (k_out k) /\ forall code, host_down (k_out k) code = false.
Proof.
  pose (b := [[D 30 10; D 45 20; D 48 30; U 30 40; U 45 50; U 48 60]; [D 46 100; D 45 110; U 45 120; U 46 130];
    [D 46 200; T 400; D 45 410; D 32 420; U 45 430; U 46 440]; [T 520; D 30 530; U 32 540; U 30 550];
    [D 18 600; U 18 610; D 30 620; U 30 630]; [D 33 640; T 800; U 33 900; D 50 910; U 50 920; D 45 930; U 45 940]]).
  destruct (endsb_ok (sound_of ex25_cfg false) ex25_cfg b (fun k => Nat.leb 20 (length (concat b)) && Nat.leb 30 (length (k_out k))) ex25_sound)
    as [k [H1 [H2 [H3 H4]]]].
  - vm_compute. reflexivity.
  - rewrite andb_true_iff, !Nat.leb_le in H4. destruct H4 as [H4 H5].
    exists k, (concat b). repeat (split; auto). eapply C25_released; eauto using ex25_parses.
Qed.
(* toggled layers, with a oneshot layer that has no modifiers *)
Definition ex25b_text : str := bs "[main]
a = toggle(nav)
s = oneshot(nav)
d = layer(control)
[nav]
x = S-left
".
Definition ex25b_cfg : config := cfg_of ex25b_text.
Lemma ex25b_parses : config_parse ex25b_text = Ok (Some ex25b_cfg).
Proof. apply parsesb_ok. vm_compute. reflexivity. Qed.
Lemma ex25b_sound : sound_of ex25b_cfg true ex25b_cfg.
Proof.
  apply sound_check; [apply (config_parse_inv _ _ ex25b_parses)|vm_compute; reflexivity..].
Qed.
Example C25_toggle_example :
  exists k evs, fed (sound_of ex25b_cfg true) ex25b_cfg k evs /\ hands_off evs /\ layers_idle k
    /\ 14 <= length (k_out k) /\ forall code, host_down (k_out k) code = false.
Proof.
  pose (b := [[D 30 10; U 30 20; D 32 30; D 45 40; U 32 50; U 45 60]; [D 31 70; U 31 80; D 30 90; U 30 100; D 45 110; U 45 120];
    [D 31 130; U 31 140; D 45 150; U 45 160]]).
  destruct (endsb_ok (sound_of ex25b_cfg true) ex25b_cfg b (fun k => Nat.leb 14 (length (k_out k))) ex25b_sound)
    as [k [H1 [H2 [H3 H4]]]].
  - vm_compute. reflexivity.
  - apply Nat.leb_le in H4. exists k, (concat b). repeat (split; auto). eapply C25_released; eauto using ex25b_parses.
Qed.

(* ---- limits: configurations outside the class leave a key pressed --------------------------- *)
(* the key is pressed on the virtual keyboard although all physical keys are released and
   no layer is toggled or waiting *)
Definition stuck (text : str) (code : N) : Prop :=
  exists c k evs, config_parse text = Ok (Some c) /\ fed anyc c k evs /\ hands_off evs /\ layers_idle k
    /\ host_down (k_out k) code = true.
Lemma stuck_check text b code :
  (match config_parse text with Ok (Some c) => endsb c b (fun k => host_down (k_out k) code) | _ => false end) = true ->
  stuck text code.
Proof.
  intros H. destruct (config_parse text) as [[c|]| | |] eqn:E; try discriminate H.
  destruct (endsb_ok anyc c b _ Logic.I H) as [k [H1 [H2 [H3 H4]]]]. exists c, k, (concat b). auto 10.
Qed.
(* a layer toggled on, a oneshot layer with modifiers, the layer toggled off: control *)
Theorem C25_toggle_refuted : stuck (bs "[main]
a = toggle(nav)
s = oneshot(control)
[nav]
") 29.
Proof. apply stuck_check with (b := [[D 30 10; U 30 20; D 31 30; U 31 40; D 30 50; U 30 60]]). vm_compute. reflexivity. Qed.
(* clearm of a macro with modifiers *)
Theorem C25_clearm_refuted : stuck (bs "[main]
a = clearm(C-x)
") 29.
Proof. apply stuck_check with (b := [[D 30 10; U 30 20]]). vm_compute. reflexivity. Qed.
(* overload of a macro with modifiers *)
Theorem C25_overload_macro_refuted : stuck (bs "[main]
a = overload(nav, macro(C-x))
[nav]
") 29.
Proof. apply stuck_check with (b := [[D 30 10; U 30 20; T 1000]]). vm_compute. reflexivity. Qed.
(* overload of an action decided later *)
Theorem C25_overload_later_refuted : stuck (bs "[main]
a = overload(nav, overloadt(control, x, 100))
[nav]
") 29.
Proof. apply stuck_check with (b := [[D 30 10; U 30 20; T 1000]]). vm_compute. reflexivity. Qed.
(* overloadi of overloadi, overload of overloadi *)
Theorem C25_overloadi_refuted : stuck (bs "[main]
a = overloadi(overloadi(layer(control), x, 100), x, 1000)
") 29.
Proof. apply stuck_check with (b := [[D 45 10; U 45 15; D 30 20; U 30 30]; [D 45 1010; U 45 1020]]). vm_compute. reflexivity. Qed.
Theorem C25_overload_overloadi_refuted : stuck (bs "[main]
a = overload(nav, overloadi(layer(control), x, 1000))
[nav]
") 29.
Proof. apply stuck_check with (b := [[D 45 10; U 45 15; D 30 20; U 30 30]; [D 45 1010; U 45 1020]]). vm_compute. reflexivity. Qed.
(* chords: key c, pressed behind an undecided key, is released while a chord is struck; its
   release overtakes its press and c stays held.  The configuration is neat. *)
Definition ex25c_text : str := bs "[global]
chord_hold_timeout = 500
[main]
a = overloadt(nav, y, 200)
j+k = z
[nav]
".
Definition ex25c_cfg : config := cfg_of ex25c_text.
Theorem C25_chord_refuted :
  neat (nested_of ex25c_cfg) (layouts_of ex25c_cfg) (mods_of ex25c_cfg) false ex25c_cfg /\ stuck ex25c_text 46.
Proof.
  split.
  - apply neatb_ok; [apply (config_parse_inv ex25c_text), parsesb_ok; vm_compute; reflexivity|vm_compute; reflexivity].
  - apply stuck_check with (b := [[D 30 10; D 46 20; D 36 30; D 37 40; U 46 50; T 210; T 541; U 36 600; U 37 601; U 30 610; T 2000]]).
    vm_compute. reflexivity.
Qed.
(* ... but once they are forgotten nothing is pressed, also when a chord was struck; here
   the run starts with a macro that pauses inside a group of keys *)
Definition ex25d_text : str := bs "[main]
a = macro(x+10ms+y+20ms+z)
j+k = overload(nav, z)
[nav]
x = y
".
Definition ex25d_cfg : config := cfg_of ex25d_text.
Lemma ex25d_parses : config_parse ex25d_text = Ok (Some ex25d_cfg).
Proof. apply parsesb_ok. vm_compute. reflexivity. Qed.
Definition neat_of (c : config) (tg : bool) : config -> Prop := neat (nested_of c) (layouts_of c) (mods_of c) tg.
Example C25_no_stuck_example : exists k, reach (neat_of ex25d_cfg false) ex25d_cfg k /\ none_held k /\ layers_idle k
  /\ 12 <= length (k_out k) /\ c_macros (k_cfg k) <> [] /\ forall code, host_down (k_out k) code = false.
Proof.
  pose (b := [[D 30 10; U 30 20]; [D 36 700; D 37 710; T 900; D 45 910; U 36 920; U 45 930; U 37 940]]).
  assert (Hn : neat_of ex25d_cfg false ex25d_cfg).
  { apply neatb_ok; [apply (config_parse_inv _ _ ex25d_parses)|vm_compute; reflexivity]. }
  destruct (endsb_ok (neat_of ex25d_cfg false) ex25d_cfg b
    (fun k => forallb (fun e => (ce_code e =? 0)%N) (k_cache k) && Nat.leb 12 (length (k_out k)) && negb (Nat.eqb (length (c_macros (k_cfg k))) 0)) Hn)
    as [k [H1 [H2 [H3 H4]]]].
  - vm_compute. reflexivity.
  - rewrite !andb_true_iff, Nat.leb_le, negb_true_iff, Nat.eqb_neq, forallb_forall in H4. destruct H4 as [[H4 H5] H6].
    assert (Hr : reach (neat_of ex25d_cfg false) ex25d_cfg k) by exact (fed_reach _ _ _ _ H1).
    assert (Hh : none_held k) by (intros e He; now apply N.eqb_eq, H4).
    exists k. repeat (split; auto).
    + intros E. now rewrite E in H6.
    + exact (C25_no_stuck _ _ _ _ _ _ _ ex25d_parses Hr Hh H3).
Qed.

Definition C25_all := (C25_no_stuck, C25_none_held, C25_released, C25_follows, C25_macros, C25_toggle_refuted, C25_clearm_refuted,
  C25_overload_macro_refuted, C25_overload_later_refuted, C25_overloadi_refuted, C25_overload_overloadi_refuted, C25_chord_refuted).
Print Assumptions C25_all.
