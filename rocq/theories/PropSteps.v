(* C11 (clear), C12 (oneshot), C13 (toggle), C22 (duplicate events), C23 (returned
   timeout): what a single event does when no decision is pending. *)
From Coq Require Import String.
From Verif Require Import Base Lib Keys Types MacroExec Kbd Config Steps Hist SpecTrace SpecMods SpecLookup
  SpecHist SpecActions SpecKept TraceProofs ModsProofs LookupProofs Engine SpecWf Wf WfHist ActProofs StepProofs
  OneProofs CacheProofs Inv ClassInv KeptProofs TimerProofs ExTools.
Local Open Scope list_scope.
Local Open Scope N_scope.
Local Notation length := List.length.

(* ---- C11 ------------------------------------------------------------------------- *)
(* The press of a key bound to clear(): no key of the virtual keyboard is down, no
   macro repeats, no oneshot is pending, no layer (other than layouts, which cannot
   be toggled) is toggled.  A layer loses exactly its toggle and oneshot
   activations; layouts lose none but pending oneshots. *)
Theorem C11_clear :
  forall (G : config -> Prop) c fuel k code time dl k' t,
  reach G c k -> ready k code time -> resolves k code DClear dl ->
  process_event fuel k code true time = Ok (k', t) ->
  (forall o, o < 256 -> k_ks k' o = false) /\ k_amacro k' = None
  /\ k_latch k' = false /\ k_oneshot_to k' = 0%Z
  /\ (forall i, is_layer k i -> oneshots k' i = 0)
  /\ (forall i, is_layer k i -> i <> 0%nat -> is_layout (ly_type (layer_of k i)) = false ->
        toggled k' i = false
        /\ (if toggled k i then 1 else 0) + oneshots k i <= count k i
        /\ count k' i = count k i - oneshots k i - (if toggled k i then 1 else 0))
  /\ (forall i, is_layer k i -> i = 0%nat \/ is_layout (ly_type (layer_of k i)) = true ->
        count k' i = count k i - oneshots k i).
Proof.
  intros G c fuel k code time dl k' t Hr Hy Hres H.
  destruct (press_do _ _ _ _ _ _ _ _ (proj2 (reach_times _ _ _ Hr)) Hy Hres H) as [k0 [k1 [P [E ->]]]].
  destruct P as [q [i [-> [Hi [Hz Hq]]]]].
  apply pd_unfold in E as [ka [kb [E1 [-> E2]]]]. apply Ok_inj in E1. subst ka.
  apply pd_clear_ok in E2. exact E2.
Qed.

(* ... as seen by the host *)
Theorem C11_host :
  forall c fuel k code time dl k' t o,
  reach (macros_avoid o) c k -> ready k code time -> resolves k code DClear dl ->
  process_event fuel k code true time = Ok (k', t) ->
  o < 256 -> host_down (k_out k') o = false.
Proof.
  intros c fuel k code time dl k' t o Hr Hy Hres H Ho.
  pose proof (C11_clear _ _ _ _ _ _ _ _ _ Hr Hy Hres H) as [A _]. specialize (A o Ho).
  assert (Hr' : reach (macros_avoid o) c k') by (eapply reach_events; [exact Hr|apply one_event, H]).
  pose proof (reach_agrees _ _ _ o (fun c H => H) Hr') as Ha. unfold agrees in Ha. congruence.
Qed.

(* ---- C12 ------------------------------------------------------------------------- *)
(* Tapping oneshot(L): the press adds one activation; the release, with no key
   sequence, macro, command or toggle in between (the engine's oneshot latch still
   set), keeps it as a pending oneshot. *)
Theorem C12_press :
  forall (G : config -> Prop) c fuel k code time d l dl k' t,
  oneshot_of d l -> reach G c k -> ready k code time -> resolves k code d dl ->
  process_event fuel k code true time = Ok (k', t) ->
  k_latch k' = true /\ count k' l = (count k l + 1) mod 256
  /\ oneshots k' l = oneshots k l /\ forall i, i <> l -> count k' i = count k i.
Proof.
  intros G c fuel k code time d l dl k' t Ho Hr Hy Hres H.
  destruct (press_do _ _ _ _ _ _ _ _ (proj2 (reach_times _ _ _ Hr)) Hy Hres H) as [k0 [k1 [P [E ->]]]].
  destruct P as [q [i [-> [Hi [Hz Hq]]]]].
  unfold do_desc, pd_fuel in E. exact (oneshot_press _ _ _ _ _ _ _ _ Ho E).
Qed.
Theorem C12_release :
  forall fuel k code time d l dl k' t,
  oneshot_of d l -> code <> 0 -> idle k -> unchorded k code -> nothing_due k time -> held k code d dl ->
  process_event fuel k code false time = Ok (k', t) ->
  (k_latch k = true -> k_latch k' = true /\ (forall i, count k' i = count k i)
     /\ oneshots k' l = (oneshots k l + 1) mod 256 /\ (forall i, i <> l -> oneshots k' i = oneshots k i)
     /\ k_out k' = k_out k
     /\ (c_oneshot_timeout (k_cfg k) <> 0%Z -> k_oneshot_to k' = (time + c_oneshot_timeout (k_cfg k))%Z))
  /\ (k_latch k = false -> count k l <> 0 /\ count k' l = count k l - 1
     /\ (forall i, i <> l -> count k' i = count k i) /\ forall i, oneshots k' i = oneshots k i).
Proof.
  intros fuel k code time d l dl k' t Ho Hc Hi Hu Hd Hh H.
  destruct (release_do _ _ _ _ _ _ _ _ Hc Hi Hu Hd Hh H) as [q [ca [k1 [Hq [E ->]]]]].
  unfold do_desc, pd_fuel in E. apply (oneshot_release _ _ _ _ _ _ _ _ Ho) in E as [A B]. split; [|exact B].
  intros Hl. destruct (A Hl) as [A1 [A2 [A3 [A4 [A5 A6]]]]]. repeat split; auto.
  intros Hz. now destruct (A6 Hz).
Qed.

(* The next press of a key sequence, macro, command or toggle: no oneshot is
   pending afterwards. *)
Theorem C12_next_key_ends :
  forall (G : config -> Prop) c fuel k code time d dl k' t,
  ends_oneshot d -> reach G c k -> ready k code time -> resolves k code d dl ->
  process_event fuel k code true time = Ok (k', t) ->
  k_latch k' = false /\ k_oneshot_to k' = 0%Z /\ forall i, is_layer k i -> oneshots k' i = 0.
Proof.
  intros G c fuel k code time d dl k' t He Hr Hy Hres H.
  destruct (press_do _ _ _ _ _ _ _ _ (proj2 (reach_times _ _ _ Hr)) Hy Hres H) as [k0 [k1 [P [E ->]]]].
  destruct P as [q [i [-> [Hi [Hz Hq]]]]].
  unfold do_desc, pd_fuel in E. exact (press_ends _ _ _ _ _ _ _ He E).
Qed.
(* ... and each layer has lost exactly its pending oneshot activations *)
Theorem C12_next_key_counts :
  forall (G : config -> Prop) c fuel k code time d dl k' t,
  ends_oneshot d -> (forall l, ~ toggle_of d l) -> reach G c k -> ready k code time -> resolves k code d dl ->
  process_event fuel k code true time = Ok (k', t) ->
  forall i, is_layer k i ->
    oneshots k i <= count k i /\ count k' i = count k i - oneshots k i /\ toggled k' i = toggled k i.
Proof.
  intros G c fuel k code time d dl k' t He Hn Hr Hy Hres H.
  destruct (press_do _ _ _ _ _ _ _ _ (proj2 (reach_times _ _ _ Hr)) Hy Hres H) as [k0 [k1 [P [E ->]]]].
  destruct P as [q [i [-> [Hi [Hz Hq]]]]].
  unfold do_desc, pd_fuel in E. exact (press_ends_counts _ _ _ _ _ _ _ He Hn E).
Qed.
(* Until then they stay: presses of layer, oneshot, overload..., timeout and scroll
   keys keep them. *)
Theorem C12_others_keep :
  forall (G : config -> Prop) c fuel k code time d dl k' t,
  keeps_oneshot d -> reach G c k -> ready k code time -> resolves k code d dl ->
  process_event fuel k code true time = Ok (k', t) ->
  forall i, oneshots k' i = oneshots k i /\ toggled k' i = toggled k i.
Proof.
  intros G c fuel k code time d dl k' t He Hr Hy Hres H.
  destruct (press_do _ _ _ _ _ _ _ _ (proj2 (reach_times _ _ _ Hr)) Hy Hres H) as [k0 [k1 [P [E ->]]]].
  destruct P as [q [i [-> [Hi [Hz Hq]]]]].
  unfold do_desc, pd_fuel in E. exact (press_keeps _ _ _ _ _ _ _ He E).
Qed.
(* ... and so do releases of keys other than oneshot keys (C12_release) and
   overload keys (whose tap action is a press). *)
Theorem C12_releases_keep :
  forall fuel k code time d dl k' t,
  (forall l, ~ oneshot_of d l) -> (forall l a, d <> DOverload l a) ->
  code <> 0 -> idle k -> unchorded k code -> nothing_due k time -> held k code d dl ->
  process_event fuel k code false time = Ok (k', t) ->
  k_latch k' = k_latch k /\ k_oneshot_to k' = k_oneshot_to k
  /\ forall i, oneshots k' i = oneshots k i /\ toggled k' i = toggled k i.
Proof.
  intros fuel k code time d dl k' t Ho Hv Hc Hi Hu Hd Hh H.
  destruct (release_do _ _ _ _ _ _ _ _ Hc Hi Hu Hd Hh H) as [q [ca [k1 [Hq [E ->]]]]].
  apply pd_unfold in E as [ka [kb [E1 [-> E2]]]]. apply Ok_inj in E1. subst ka.
  set (k0 := set_k_cache ca (set_k_chord q k)) in *.
  cut (k_latch kb = k_latch k0 /\ k_oneshot_to kb = k_oneshot_to k0
       /\ forall i, oneshots kb i = oneshots k0 i /\ toggled kb i = toggled k0 i); [auto|].
  clearbody k0. clear -Ho Hv E2.
  assert (L : forall l, pd_layer k0 code l false = Ok kb -> k_latch kb = k_latch k0 /\ k_oneshot_to kb = k_oneshot_to k0
       /\ forall i, oneshots kb i = oneshots k0 i /\ toggled kb i = toggled k0 i).
  { intros l Hl. unfold pd_layer in Hl. bstep Hl k2 E3. apply Ok_inj in Hl. subst kb.
    pose proof (deactivate_depths _ _ _ E3) as Hdd. apply deactivate_ok in E3 as [_ [b ->]].
    match goal with |- context [update_mods ?a ?b ?c ?d] =>
      destruct (update_mods_only a b c d) as [l2 [s2 [o2 ->]]] end.
    split; [reflexivity|]. split; [reflexivity|]. exact Hdd. }
  destruct d; try (apply Ok_inj in E2; subst kb; auto; fail); try (now apply (L _ E2)).
  - unfold pd_key in E2. cbn [bind] in E2. apply Ok_inj in E2. subst kb.
    match goal with |- context [send_key ?a ?b ?c] =>
      destruct (send_key_only a b c) as [l1 [s1 [o1 ->]]] end.
    match goal with |- context [update_mods ?a ?b ?c ?d] =>
      destruct (update_mods_only a b c d) as [l2 [s2 [o2 ->]]] end.
    destruct ((mods =? 0) || (mods =? MOD_SHIFT)); auto.
  - elim (Ho l). now left.
  - elim (Ho l). right. eauto.
  - bstep E2 mm Em. cbn [pd_swap] in E2. apply Ok_inj in E2. subst kb.
    destruct mm as [|[[] data] [|]]; auto.
    match goal with |- context [send_key ?a ?b ?c] =>
      destruct (send_key_only a b c) as [l1 [s1 [o1 ->]]] end.
    match goal with |- context [update_mods ?a ?b ?c ?d] =>
      destruct (update_mods_only a b c d) as [l2 [s2 [o2 ->]]] end. auto.
  - elim (Hv l a). reflexivity.
Qed.

(* Timeout: at a tick at or after the deadline the pending oneshots end; before the
   deadline a tick changes no layer. *)
Theorem C12_timeout_tick :
  forall fuel k time k' t,
  idle k -> k_oneshot_to k <> 0%Z -> (k_oneshot_to k <= time)%Z ->
  process_event fuel k 0 false time = Ok (k', t) ->
  k_latch k' = false /\ k_oneshot_to k' = 0%Z
  /\ forall i, is_layer k i -> oneshots k' i = 0 /\ oneshots k i <= count k i
       /\ toggled k' i = toggled k i /\ count k' i = count k i - oneshots k i.
Proof.
  intros fuel k time k' t [Hp Hs] Hz Hd H. destruct fuel; [discriminate|].
  apply process_event_open in H as [k1 [E H]]; [|split; auto|left; exact Hp].
  unfold calculate_main_loop_timeout in H. apply pair_equal_spec in H as [-> _].
  unfold rest_step in E. bstep E k3 E3. bstep E k4 E4. cbn [handle_key N.eqb] in E. apply Ok_inj in E. subst k1.
  unfold expire_oneshot in E3. cbn [k_oneshot_to chord_seen set_k_chord] in E3.
  replace (negb (k_oneshot_to k =? 0)%Z && (k_oneshot_to k <=? time)%Z) with true in E3 by lia.
  bstep E3 k2 E2. apply Ok_inj in E3. subst k3. apply clear_oneshot_ended in E2.
  destruct (update_mods_only false k2 None 0) as [l [s [o Eu]]]. rewrite Eu in E4. clear Eu.
  assert (A : k_ls k4 = k_ls k2 /\ k_latch k4 = k_latch k2 /\ k_oneshot_to k4 = k_oneshot_to k2).
  { unfold run_active_macro in E4. cbn [N.eqb negb] in E4. destruct (k_amacro _); [|apply Ok_inj in E4; subst; auto].
    destruct (_ <=? _)%Z; [|apply Ok_inj in E4; subst; auto].
    bstep E4 mm Em. apply schedule_ok in E4. subst k4.
    match goal with |- context [execute_macro ?a ?b ?c] =>
      destruct (execute_macro_only a b c) as [l1 [s1 [o1 ->]]] end. repeat split. }
  destruct A as [A1 [A2 A3]]. destruct E2 as [B1 [B2 B3]].
  cbn [k_latch k_oneshot_to set_k_timeouts]. rewrite A2, A3. split; [exact B1|]. split; [exact B2|].
  intros i Hi. specialize (B3 i Hi). unfold oneshots, count, toggled in *.
  cbn [k_ls set_k_timeouts]. rewrite A1. exact B3.
Qed.
(* The same at a key event: the oneshots end first, and then the event is handled. *)
Theorem C12_timeout_event :
  forall fuel k code pressed time k' t,
  idle k -> unchorded k code -> k_oneshot_to k <> 0%Z -> (k_oneshot_to k <= time)%Z ->
  process_event fuel k code pressed time = Ok (k', t) ->
  exists k3, oneshots_ended k k3 /\ idle k3 /\ process_event fuel k3 code pressed time = Ok (k', t).
Proof.
  intros fuel k code pressed time k' t [Hp Hs] Hu Hz Hd H. destruct fuel; [discriminate|].
  apply process_event_open in H as [k1 [E H]]; [|split; auto|left; exact Hp].
  unfold rest_step in E. bstep E k3 E3. bstep E k4 E4.
  pose proof (expire_frame _ _ _ E3) as [F1 [F2 [F3 [F4 _]]]].
  pose proof (expire_cp _ _ _ E3) as [[F6 _] _].
  unfold expire_oneshot in E3. cbn [k_oneshot_to chord_seen set_k_chord] in E3.
  replace (negb (k_oneshot_to k =? 0)%Z && (k_oneshot_to k <=? time)%Z) with true in E3 by lia.
  bstep E3 k2 E2. apply Ok_inj in E3. apply clear_oneshot_ended in E2.
  apply (ended_ls _ k) in E2; [|reflexivity..].
  assert (E2' : oneshots_ended k k3).
  { subst k3. destruct (update_mods_only false k2 None 0) as [l [s [o ->]]]. exact E2. }
  exists k3. split; [exact E2'|]. destruct E2' as [_ [Ht E2']].
  assert (Hi3 : idle k3).
  { split; [|rewrite F3; exact Hs]. rewrite F6. exact Hp. }
  split; [exact Hi3|].
  assert (Hu3 : unchorded k3 code).
  { destruct Hu as [U1 U2]. split.
    - intros i ch [L1 L2] Hch. apply (U1 i ch).
      + rewrite F1 in L1. split; [exact L1|]. specialize (E2' i L1). unfold oneshots, count in E2'. lia.
      + unfold layer_of in *. rewrite F1 in Hch. exact Hch.
    - rewrite F4. exact U2. }
  cbn [process_event]. rewrite process_event_plan. rewrite chord_plan_open by (split; [apply Hi3|auto]).
  assert (Ecs : chord_seen k3 code pressed time = k3).
  { unfold chord_seen. rewrite F3. cbn [chord_seen k_chord set_k_chord].
    replace (set_k_chord _ k3) with (set_k_chord (k_chord k3) k3); [apply set_same_chord|].
    rewrite F3. unfold chord_seen. cbn [k_chord set_k_chord]. destruct (k_chord k). reflexivity. }
  rewrite Ecs. cbn [bind run_plan]. unfold after_chord, pending_plan.
  destruct Hi3 as [-> _]. cbn [N.eqb bind run_pplan]. unfold rest_step, expire_oneshot.
  rewrite Ht. cbn [Z.eqb negb andb bind]. rewrite E4. cbn [bind]. rewrite E. cbn [bind]. now rewrite H.
Qed.
Theorem C12_no_early_end :
  forall fuel k time k' t,
  idle k -> k_oneshot_to k = 0%Z \/ (time < k_oneshot_to k)%Z ->
  process_event fuel k 0 false time = Ok (k', t) ->
  forall i, count k' i = count k i /\ oneshots k' i = oneshots k i /\ toggled k' i = toggled k i.
Proof.
  intros fuel k time k' t [Hp Hs] Hz H. destruct fuel; [discriminate|].
  apply process_event_open in H as [k1 [E H]]; [|split; auto|left; exact Hp].
  unfold calculate_main_loop_timeout in H. apply pair_equal_spec in H as [-> _].
  unfold rest_step in E. bstep E k3 E3. bstep E k4 E4. cbn [handle_key N.eqb] in E. apply Ok_inj in E. subst k1.
  unfold expire_oneshot in E3. cbn [k_oneshot_to chord_seen set_k_chord] in E3.
  replace (negb (k_oneshot_to k =? 0)%Z && (k_oneshot_to k <=? time)%Z) with false in E3 by lia.
  apply Ok_inj in E3. subst k3.
  assert (A : k_ls k4 = k_ls k).
  { unfold run_active_macro in E4. cbn [N.eqb negb] in E4. destruct (k_amacro _); [|apply Ok_inj in E4; subst; auto].
    destruct (_ <=? _)%Z; [|apply Ok_inj in E4; subst; auto].
    bstep E4 mm Em. apply schedule_ok in E4. subst k4.
    match goal with |- context [execute_macro ?a ?b ?c] =>
      destruct (execute_macro_only a b c) as [l1 [s1 [o1 ->]]] end. reflexivity. }
  intros i. unfold count, oneshots, toggled. cbn [k_ls set_k_timeouts]. now rewrite A.
Qed.

(* ---- C13 ------------------------------------------------------------------------- *)
(* The press of a toggle key flips the toggle and adds or removes one activation of
   its layer (and ends pending oneshots, C12). *)
Theorem C13_toggle :
  forall (G : config -> Prop) c fuel k code time d l dl k' t,
  toggle_of d l -> is_layer k l -> reach G c k -> ready k code time -> resolves k code d dl ->
  process_event fuel k code true time = Ok (k', t) ->
  toggled k' l = negb (toggled k l)
  /\ (toggled k l = true -> oneshots k l < count k l /\ count k' l = count k l - 1 - oneshots k l)
  /\ (toggled k l = false -> oneshots k l <= (count k l + 1) mod 256
        /\ count k' l = (count k l + 1) mod 256 - oneshots k l)
  /\ oneshots k' l = 0
  /\ forall i, is_layer k i -> i <> l ->
       toggled k' i = toggled k i /\ oneshots k i <= count k i /\ count k' i = count k i - oneshots k i.
Proof.
  intros G c fuel k code time d l dl k' t Ht Hl Hr Hy Hres H.
  destruct (press_do _ _ _ _ _ _ _ _ (proj2 (reach_times _ _ _ Hr)) Hy Hres H) as [k0 [k1 [P [E ->]]]].
  destruct P as [q [i [-> [Hi [Hz Hq]]]]].
  apply pd_unfold in E as [ka [kb [E1 [-> E2]]]].
  assert (E3 : pd_toggle ka code l true = Ok kb) by (destruct Ht as [->|[m ->]]; exact E2).
  apply pre_macro_only in E1 as [l1 [s1 [o1 ->]]].
  apply pd_toggle_ok in E3 as [_ [_ [A B]]]. specialize (A Hl). destruct A as [A1 [A2 [A3 A4]]].
  split; [exact A2|]. split; [exact A3|]. split; [exact A4|]. split; [exact A1|].
  intros j Hj Hn. destruct (B j Hj Hn) as [B1 [B2 [B3 B4]]]. auto.
Qed.
(* Two toggles restore the count (no oneshot pending, no overflow of the 8-bit
   counter), whatever happened in between that left the layer's count alone. *)
Theorem C13_involution :
  forall (G G' : config -> Prop) c c' fuel k code time d l dl k1 t1 fuel' k2 code' time' d' dl' k3 t3,
  toggle_of d l -> toggle_of d' l ->
  reach G c k -> ready k code time -> resolves k code d dl -> is_layer k l ->
  oneshots k l = 0 -> count k l < 255 ->
  process_event fuel k code true time = Ok (k1, t1) ->
  reach G' c' k2 -> ready k2 code' time' -> resolves k2 code' d' dl' -> is_layer k2 l ->
  count k2 l = count k1 l -> toggled k2 l = toggled k1 l -> oneshots k2 l = 0 ->
  process_event fuel' k2 code' true time' = Ok (k3, t3) ->
  count k3 l = count k l /\ toggled k3 l = toggled k l.
Proof.
  intros G G' c c' fuel k code time d l dl k1 t1 fuel' k2 code' time' d' dl' k3 t3 T1 T2 R1 Y1 S1 L1 O1 C1 H1
    R2 Y2 S2 L2 Ec Et O2 H2.
  destruct (C13_toggle _ _ _ _ _ _ _ _ _ _ _ T1 L1 R1 Y1 S1 H1) as [A1 [A2 [A3 [A4 _]]]].
  destruct (C13_toggle _ _ _ _ _ _ _ _ _ _ _ T2 L2 R2 Y2 S2 H2) as [B1 [B2 [B3 [B4 _]]]].
  rewrite B1, Et, A1. rewrite negb_involutive. split; [|reflexivity].
  rewrite Ec, Et, A1, O2 in *. rewrite O1 in *. destruct (toggled k l); cbn [negb] in *.
  - destruct (A2 eq_refl) as [X1 X2]. destruct (B3 eq_refl) as [_ Y3]. rewrite Y3, X2.
    rewrite N.mod_small; lia.
  - destruct (A3 eq_refl) as [X1 X2]. destruct (B2 eq_refl) as [_ Y3]. rewrite Y3, X2.
    rewrite N.mod_small; lia.
Qed.

(* ---- C22 ------------------------------------------------------------------------- *)
(* With nothing undecided and nothing due, a press of a key already held and a
   release of a key not held change nothing (but expire timers). *)
Theorem C22_no_effect :
  forall fuel k code pressed time k' t,
  idle k -> unchorded k code -> nothing_due k time -> code <> 0 ->
  (pressed = true -> ~ unheld k code) -> (pressed = false -> unheld k code) ->
  process_event fuel k code pressed time = Ok (k', t) ->
  same_but_timers k k' /\ k_out k' = k_out k.
Proof.
  intros fuel k code pressed time k' t [Hp Hs] Hu Hd Hc H1 H2 H. destruct fuel; [discriminate|].
  apply process_event_open in H as [k1 [E H]]; [|split; auto|left; exact Hp].
  unfold calculate_main_loop_timeout in H. apply pair_equal_spec in H as [-> _].
  rewrite rest_nothing in E by exact Hd. unfold handle_key in E.
  destruct (N.eqb_spec code 0); [congruence|].
  assert (E1 : k1 = chord_seen k code pressed time).
  { destruct pressed.
    - destruct (cache_get _ code) eqn:Eg; [now apply Ok_inj in E|].
      elim (H1 eq_refl). intros e He Hx.
      unfold cache_get in Eg. cbn [k_cache chord_seen set_k_chord] in Eg.
      clear -He Hx Eg. revert Eg. generalize 0%nat. induction (k_cache k) as [|e0 r IH]; [destruct He|].
      cbn [cache_find]. intros n. destruct (N.eqb_spec (ce_code e0) code) as [|Hne]; [discriminate|].
      destruct He as [->|He]; [contradiction|]. now apply IH.
    - assert (Hh : unheld (chord_seen k code false time) code) by exact (H2 eq_refl).
      rewrite (cache_get_unheld _ _ Hh) in E. now apply Ok_inj in E. }
  subst k1. split; [|reflexivity].
  unfold same_but_timers, chord_seen. eexists _, _. split; [reflexivity|reflexivity].
Qed.

(* ---- C23 ------------------------------------------------------------------------- *)
(* The returned delay, in terms of the timers left: all of them lie in the future,
   and the delay is the distance to the earliest, 0 if there is none.  (Every event,
   whatever is undecided.) *)
Theorem C23_returned_delay :
  forall fuel k code pressed time k' t,
  (0 <= time)%Z -> process_event fuel k code pressed time = Ok (k', t) ->
  (forall x, In x (k_timeouts k') -> (time < x)%Z)
  /\ ((k_timeouts k' = [] /\ t = 0%Z)
      \/ exists x, In x (k_timeouts k') /\ t = (x - time)%Z /\ forall y, In y (k_timeouts k') -> (x <= y)%Z).
Proof.
  intros fuel k code pressed time k' t Ht H. apply process_event_calc in H as [k1 H].
  apply (calc_spec _ _ _ _ Ht) in H as [A B]. split; [|exact B]. intros x Hx. now apply A.
Qed.
(* No timer in the future is lost while nothing is undecided.  (While a decision is
   pending events are replayed at their own, earlier times: see C24.) *)
Theorem C23_timers_kept :
  forall fuel k code pressed time k' t x,
  idle k -> code = 0 \/ unchorded k code ->
  process_event fuel k code pressed time = Ok (k', t) ->
  In x (k_timeouts k) -> (time < x)%Z -> In x (k_timeouts k').
Proof.
  intros fuel k code pressed time k' t x [Hp Hs] Hu H Hin Hx. destruct fuel; [discriminate|].
  apply process_event_open in H as [k1 [E H]]; [|split; auto|left; exact Hp].
  unfold calculate_main_loop_timeout in H. apply pair_equal_spec in H as [-> _].
  apply rest_tgrow in E as [new E]. cbn [k_timeouts set_k_timeouts]. apply filter_In. split; [|lia].
  rewrite E. apply in_or_app. left. exact Hin.
Qed.

(* ---- examples ---------------------------------------------------------------------- *)
Definition ex11_cfg : config := cfg_of (bs "[main]
q = toggle(one)
w = layer(two)
e = oneshot(three)
r = clear()
y = setlayout(lay)
[one]
[two]
[three]
[lay:layout]
").
(* a and the layer key w are held, layer one is toggled, a oneshot is pending *)
Example C11_example :
  exists k k' t, reach anyc ex11_cfg k /\ ready k 19 60 /\ resolves k 19 DClear 0
    /\ process_event 20 k 19 true 60%Z = Ok (k', t)
    /\ k_ks k 30 = true /\ toggled k 6 = true /\ count k 6 = 1 /\ count k 7 = 1 /\ oneshots k 8 = 1 /\ count k 8 = 1
    /\ k_ks k' 30 = false /\ toggled k' 6 = false /\ count k' 6 = 0 /\ count k' 7 = 1 /\ oneshots k' 8 = 0
    /\ count k' 8 = 0 /\ host_down (k_out k) 30 = true /\ host_down (k_out k') 30 = false.
Proof.
  destruct (press_ex ex11_cfg [[D 30 1; D 16 5; U 16 6; D 17 10; D 18 20; U 18 30]] 19 60 DClear 0
    (fun k k' t => k_ks k 30 && toggled k 6 && (count k 6 =? 1) && (count k 7 =? 1) && (oneshots k 8 =? 1)
       && (count k 8 =? 1) && negb (k_ks k' 30) && negb (toggled k' 6) && (count k' 6 =? 0) && (count k' 7 =? 1)
       && (oneshots k' 8 =? 0) && (count k' 8 =? 0) && host_down (k_out k) 30 && negb (host_down (k_out k') 30)))
    as [k [k' [t [_ [H1 [H2 [H3 [H4 H5]]]]]]]].
  - vm_compute. reflexivity.
  - exists k, k', t. bsplit. repeat (split; [assumption|]). assumption.
Qed.

Definition ex12_cfg : config := cfg_of (bs "[global]
oneshot_timeout = 500
[main]
e = oneshot(three)
w = layer(two)
[two]
[three]
a = b
").
(* the tap of e, the press of w (kept), the press of a (ended) *)
Example C12_tap_example :
  exists k k' t, reach anyc ex12_cfg k /\ idle k /\ unchorded k 18 /\ held k 18 (DOneshot 7) 0 /\ nothing_due k 30
    /\ process_event 20 k 18 false 30%Z = Ok (k', t) /\ k_latch k = true
    /\ count k 7 = 1 /\ oneshots k' 7 = 1 /\ count k' 7 = 1 /\ k_oneshot_to k' = 530%Z.
Proof.
  destruct (event_ex ex12_cfg [[D 18 10]] 18 false 30 (fun k k' t => heldb k 18 (DOneshot 7) 0 && quietb k 30
     && k_latch k && (count k 7 =? 1) && (oneshots k' 7 =? 1) && (count k' 7 =? 1) && (k_oneshot_to k' =? 530)%Z))
    as [k [k' [t [_ [H1 [H2 [H3 [H4 H5]]]]]]]].
  - vm_compute. reflexivity.
  - exists k, k', t. bsplit. repeat (split; [eauto using heldb_ok, quietb_ok|]). assumption.
Qed.
Example C12_keep_example :
  exists k k' t, reach anyc ex12_cfg k /\ ready k 17 40 /\ resolves k 17 (DLayer 6) 0
    /\ process_event 20 k 17 true 40%Z = Ok (k', t) /\ oneshots k 7 = 1 /\ oneshots k' 7 = 1 /\ count k' 7 = 1.
Proof.
  destruct (press_ex ex12_cfg [[D 18 10; U 18 30]] 17 40 (DLayer 6) 0
    (fun k k' t => (oneshots k 7 =? 1) && (oneshots k' 7 =? 1) && (count k' 7 =? 1)))
    as [k [k' [t [_ [H1 [H2 [H3 [H4 H5]]]]]]]].
  - vm_compute. reflexivity.
  - exists k, k', t. bsplit. repeat (split; [assumption|]). assumption.
Qed.
Example C12_end_example :
  exists k k' t, reach anyc ex12_cfg k /\ ready k 30 60 /\ resolves k 30 (DKey 48 0) 7
    /\ process_event 20 k 30 true 60%Z = Ok (k', t) /\ oneshots k 7 = 1 /\ count k 7 = 1 /\ k_oneshot_to k = 530%Z
    /\ oneshots k' 7 = 0 /\ count k' 7 = 0 /\ k_oneshot_to k' = 0%Z.
Proof.
  destruct (press_ex ex12_cfg [[D 18 10; U 18 30; D 17 40]] 30 60 (DKey 48 0) 7
    (fun k k' t => (oneshots k 7 =? 1) && (count k 7 =? 1) && (k_oneshot_to k =? 530)%Z
       && (oneshots k' 7 =? 0) && (count k' 7 =? 0) && (k_oneshot_to k' =? 0)%Z))
    as [k [k' [t [_ [H1 [H2 [H3 [H4 H5]]]]]]]].
  - vm_compute. reflexivity.
  - exists k, k', t. bsplit. repeat (split; [assumption|]). assumption.
Qed.
Example C12_timeout_example :
  exists k k' t k2 t2, reach anyc ex12_cfg k /\ idle k /\ k_oneshot_to k = 530%Z
    /\ process_event 20 k 0 false 530%Z = Ok (k', t) /\ oneshots k 7 = 1 /\ count k 7 = 1
    /\ oneshots k' 7 = 0 /\ count k' 7 = 0
    /\ process_event 20 k 0 false 529%Z = Ok (k2, t2) /\ oneshots k2 7 = 1 /\ count k2 7 = 1.
Proof.
  destruct (event_ex ex12_cfg [[D 18 10; U 18 30]] 0 false 530 (fun k k' t => (k_oneshot_to k =? 530)%Z
     && (oneshots k 7 =? 1) && (count k 7 =? 1) && (oneshots k' 7 =? 0) && (count k' 7 =? 0)
     && okb (process_event 20 k 0 false 529%Z) (fun '(k2, t2) => (oneshots k2 7 =? 1) && (count k2 7 =? 1))))
    as [k [k' [t [_ [H1 [H2 [H3 [H4 H5]]]]]]]].
  - vm_compute. reflexivity.
  - rewrite !andb_true_iff in H5. destruct H5 as [[[[[A1 A2] A3] A4] A5] A6].
    apply okb_ok in A6 as [[k2 t2] [A6 A7]]. bsplit.
    exists k, k', t, k2, t2. repeat (split; [assumption|]). assumption.
Qed.
(* a key event at 600 finds the oneshot expired *)
Example C12_timeout_event_example :
  exists k k' t, reach anyc ex12_cfg k /\ idle k /\ unchorded k 30 /\ k_oneshot_to k = 530%Z
    /\ process_event 20 k 30 true 600%Z = Ok (k', t) /\ host_down (k_out k') 30 = true /\ count k' 7 = 0.
Proof.
  destruct (event_ex ex12_cfg [[D 18 10; U 18 30]] 30 true 600 (fun k k' t => (k_oneshot_to k =? 530)%Z
     && host_down (k_out k') 30 && (count k' 7 =? 0)))
    as [k [k' [t [_ [H1 [H2 [H3 [H4 H5]]]]]]]].
  - vm_compute. reflexivity.
  - exists k, k', t. bsplit. repeat (split; [assumption|]). assumption.
Qed.

(* toggle on while the layer is also held by w' (key e), then off *)
Definition ex13_cfg : config := cfg_of (bs "[main]
q = toggle(one)
e = layer(one)
[one]
").
Example C13_example :
  exists k k' t k2 k3 t3, reach anyc ex13_cfg k /\ ready k 16 20 /\ resolves k 16 (DToggle 6) 0 /\ is_layer k 6
    /\ process_event 20 k 16 true 20%Z = Ok (k', t) /\ oneshots k 6 = 0 /\ count k 6 = 1
    /\ toggled k' 6 = true /\ count k' 6 = 2
    /\ reach anyc ex13_cfg k2 /\ ready k2 16 40 /\ resolves k2 16 (DToggle 6) 0 /\ count k2 6 = 2
    /\ toggled k2 6 = true
    /\ process_event 20 k2 16 true 40%Z = Ok (k3, t3) /\ toggled k3 6 = false /\ count k3 6 = 1.
Proof.
  destruct (press_ex ex13_cfg [[D 18 10]] 16 20 (DToggle 6) 0
    (fun k k' t => Nat.ltb 6 (length (c_layers (k_cfg k))) && (oneshots k 6 =? 0) && (count k 6 =? 1)
       && toggled k' 6 && (count k' 6 =? 2)))
    as [k [k' [t [_ [H1 [H2 [H3 [H4 H5]]]]]]]]; [vm_compute; reflexivity|].
  destruct (press_ex ex13_cfg [[D 18 10; D 16 20; U 16 30]] 16 40 (DToggle 6) 0
    (fun k k' t => (count k 6 =? 2) && toggled k 6 && negb (toggled k' 6) && (count k' 6 =? 1)))
    as [k2 [k3 [t3 [_ [J1 [J2 [J3 [J4 J5]]]]]]]]; [vm_compute; reflexivity|].
  exists k, k', t, k2, k3, t3. bsplit. repeat (split; [assumption|]). assumption.
Qed.

(* a second press of a held key; a release of a key that is up *)
Example C22_example :
  exists k k' t k2 t2, reach anyc ex12_cfg k /\ idle k /\ unchorded k 30 /\ nothing_due k 40 /\ ~ unheld k 30
    /\ process_event 20 k 30 true 40%Z = Ok (k', t) /\ k_out k' = k_out k
    /\ unchorded k 31 /\ unheld k 31 /\ process_event 20 k 31 false 40%Z = Ok (k2, t2) /\ k_out k2 = k_out k.
Proof.
  destruct (event_ex ex12_cfg [[D 30 10]] 30 true 40 (fun k k' t => quietb k 40 && heldb k 30 (DKey 30 0) 0
     && outb (k_out k') (k_out k) && unchordedb k 31 && unheldb k 31
     && okb (process_event 20 k 31 false 40%Z) (fun '(k2, t2) => outb (k_out k2) (k_out k))))
    as [k [k' [t [_ [H1 [H2 [H3 [H4 H5]]]]]]]].
  - vm_compute. reflexivity.
  - rewrite !andb_true_iff in H5. destruct H5 as [[[[[A1 A2] A3] A4] A5] A6].
    apply okb_ok in A6 as [[k2 t2] [A6 A7]].
    assert (X : ~ unheld k 30).
    { apply heldb_ok in A2 as [pre [e [post [E [_ [E2 _]]]]]]. intros X. apply (X e); [|exact E2].
      rewrite E. apply in_or_app. right. now left. }
    exists k, k', t, k2, t2.
    repeat (split; [eauto using quietb_ok, outb_ok, unchordedb_ok, unheldb_ok|]). eauto using outb_ok.
Qed.
(* two timers: the oneshot's at 530 and, for a pending overload, at 240 *)
Definition ex23_cfg : config := cfg_of (bs "[global]
oneshot_timeout = 500
[main]
e = oneshot(three)
w = overloadt(three, w, 200)
[three]
").
Example C23_example :
  exists k k' t, reach anyc ex23_cfg k /\ idle k /\ unchorded k 17 /\ k_timeouts k = [530%Z]
    /\ process_event 20 k 17 true 40%Z = Ok (k', t) /\ k_timeouts k' = [530%Z; 240%Z] /\ t = 200%Z.
Proof.
  destruct (event_ex ex23_cfg [[D 18 10; U 18 30]] 17 true 40
     (fun k k' t => timesb (k_timeouts k) [530%Z] && timesb (k_timeouts k') [530%Z; 240%Z] && (t =? 200)%Z))
    as [k [k' [t [_ [H1 [H2 [H3 [H4 H5]]]]]]]].
  - vm_compute. reflexivity.
  - rewrite !andb_true_iff in H5. destruct H5 as [[A1 A2] A3]. apply timesb_ok in A1. apply timesb_ok in A2.
    apply Z.eqb_eq in A3. exists k, k', t. repeat (split; [assumption|]). assumption.
Qed.

Definition C11_all := (C11_clear, C11_host).
Print Assumptions C11_all.
Definition C12_all := (C12_press, C12_release, C12_next_key_ends, C12_next_key_counts, C12_others_keep,
  C12_releases_keep, C12_timeout_tick, C12_timeout_event, C12_no_early_end).
Print Assumptions C12_all.
Definition C13_all := (C13_toggle, C13_involution, C22_no_effect, C23_returned_delay, C23_timers_kept).
Print Assumptions C13_all.
