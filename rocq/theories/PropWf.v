(* C04, C05 (first part), C06 (recency), C10, C32 and the engine's part of C45. *)
From Coq Require Import String.
From Verif Require Import Base Lib Keys Types MacroExec Kbd Config Steps Hist SpecTrace SpecMods
  SpecLookup SpecWf SpecHist TraceProofs ModsProofs LookupProofs Engine Wf WfEvents ParseWf WfHist.
Local Open Scope nat_scope.
Local Open Scope list_scope.
Local Notation length := List.length.

(* ---- C32 ---------------------------------------------------------------------- *)
(* Whatever the text: an accepted configuration refers only to existing layers,
   macros, commands and actions, no layer action names main or a layout, and
   every table limit holds. *)
Theorem C32_parser_wf :
  forall text c, config_parse text = Ok (Some c) -> wf_config c.
Proof. intros text c H. apply (config_parse_inv _ _ H). Qed.
Print Assumptions C32_parser_wf.

(* The same for the configuration in force after any history, live rebinding
   included. *)
Theorem C32_live_wf :
  forall text c clk k, config_parse text = Ok (Some c) -> history c clk k -> wf_config (k_cfg k).
Proof. intros text c clk k Hc H. apply (history_wf _ _ _ (config_parse_inv _ _ Hc) H). Qed.
Print Assumptions C32_live_wf.

(* Nested actions, macros, commands, chords, composite layers and a layout. *)
Definition ex32_text : str := bs "[global]
chord_timeout = 50
chord_hold_timeout = 100
[main]
a = overload(nav, overloadt2(control, macro(h e y), 200))
b = timeout(C-x, 100, command(ls))
j+k = esc
q = setlayout(dvorak)
[nav:A]
h = left
[nav+control]
h = home
[dvorak:layout]
s = o
".
Example C32_example :
  exists c, config_parse ex32_text = Ok (Some c)
    /\ length (c_layers c) = 9 /\ length (c_descs c) = 4 /\ length (c_macros c) = 1
    /\ length (c_cmds c) = 1
    /\ ly_keymap (nth 0 (c_layers c) zero_layer) 30%N = DOverload 6 1.
Proof.
  exists (cfg_of ex32_text). split; [apply parsesb_ok; vm_compute; reflexivity|].
  vm_compute. repeat split; reflexivity.
Qed.

(* ---- C04 ---------------------------------------------------------------------- *)
(* No history of events, ticks and live binds (none of these while a chord
   attempt is under way) makes the engine access memory out of bounds. *)
Theorem C04_no_out_of_bounds :
  forall text c clk k fuel evs,
    config_parse text = Ok (Some c) -> history c clk k ->
    kbd_process_events fuel k evs <> UB.
Proof.
  intros text c clk k fuel evs Hc Hh H.
  pose proof (history_wf _ _ _ (config_parse_inv _ _ Hc) Hh) as W.
  pose proof (process_events_wfJ (fun _ => True) (fun _ _ _ _ _ => I) fuel k evs (conj W I)) as G.
  rewrite H in G. exact G.
Qed.
Print Assumptions C04_no_out_of_bounds.

(* The exclusion is needed: a chord matched but held back (chord_hold_timeout),
   then `reset` and a new chord with more keys bound in its place: the replay
   of the queue reads beyond it (queue_sz - queue_offset wraps around). *)
Definition ex4_text : str := bs "[global]
chord_hold_timeout = 100
".
Theorem C04_rebind_during_chord_refuted :
  exists text c k evs, config_parse text = Ok (Some c) /\ reach (fun _ => True) c k
    /\ kbd_process_events 20 k evs = UB.
Proof.
  exists ex4_text, (cfg_of ex4_text).
  destruct (check_any_ok 1 (cfg_of ex4_text)
    [Bind (bs "a+b = x"); Ev [D 30 0; D 48 10]; Bind (bs "reset"); Bind (bs "c+d+e = y")]
    (fun k => ubb (kbd_process_events 20 k [T 200]))) as [k [H1 H2]].
  - vm_compute. reflexivity.
  - exists k, [T 200]. split; [apply parsesb_ok; vm_compute; reflexivity|]. split; auto using ubb_ok.
Qed.
Print Assumptions C04_rebind_during_chord_refuted.

(* ---- C05, first part -------------------------------------------------------------- *)
(* An abnormal stop is one of the five limits. *)
Theorem C05_only_limits :
  forall text c clk k fuel evs x,
    config_parse text = Ok (Some c) -> history c clk k ->
    kbd_process_events fuel k evs = Crash x -> limit x.
Proof.
  intros text c clk k fuel evs x Hc Hh H.
  pose proof (history_wf _ _ _ (config_parse_inv _ _ Hc) Hh) as W.
  pose proof (process_events_wfJ (fun _ => True) (fun _ _ _ _ _ => I) fuel k evs (conj W I)) as G.
  rewrite H in G. clear H W Hh Hc. cbn [sf safe] in G.
  destruct x; first [exact (False_ind _ G)|constructor].
Qed.
Print Assumptions C05_only_limits.

(* Each of them can be reached. *)
Definition ex5_text : str := bs "[global]
chord_timeout = 50
[main]
a = overloadt(control, x, 1000)
m = macro(h i)
z+x = 1
c+v = 2
b+n = 3
q+w = 4
e+r = 5
p = oneshot(nav)
f = z
k = toggle(nav)
g = toggle(nav)
j = layer(nav)
[nav]
y = swap(sym)
[sym]
".
Definition aborts (x : crash) : Prop :=
  exists text c clk k evs, config_parse text = Ok (Some c) /\ history c clk k
    /\ kbd_process_events 200 k evs = Crash x.
Lemma aborts_check x ops evs :
  check_hist 1 (cfg_of ex5_text) ops (fun k => stopb (kbd_process_events 200 k evs) x) = true -> aborts x.
Proof.
  intros H. apply check_hist_ok in H as [k [H1 H2]].
  exists ex5_text, (cfg_of ex5_text), 1%Z, k, evs. split; [|split; auto using stopb_ok].
  apply parsesb_ok. vm_compute. reflexivity.
Qed.
Fixpoint taps (n : nat) (t : Z) : list kev :=
  match n with O => [] | S n' => D 2 t :: U 2 (t + 1)%Z :: taps n' (t + 2)%Z end.
(* 33 events while a is undecided *)
Theorem C05_abort_pending_queue : aborts CPendingQueue.
Proof. apply (aborts_check _ [Ev [D 30 0]] (taps 17 1)). vm_compute. reflexivity. Qed.
(* the wheel bound to a macro: 65 timers within the macro time-out *)
Fixpoint presses (n : nat) (t : Z) : list kev :=
  match n with O => [] | S n' => D 50 t :: U 50 (t + 1)%Z :: presses n' (t + 2)%Z end.
Theorem C05_abort_timers : aborts CTimeouts.
Proof. apply (aborts_check _ [Ev (presses 60 1)] (presses 5 121)). vm_compute. reflexivity. Qed.
(* a fourth chord held *)
Theorem C05_abort_chords : aborts CActiveChords.
Proof.
  apply (aborts_check _ [Ev [D 44 0; D 45 1; D 46 2; D 47 3; D 48 4; D 49 5]] [D 16 6; D 17 7]).
  vm_compute. reflexivity.
Qed.
(* swap mistaking an earlier key for the one that holds the layer *)
Theorem C05_abort_inactive : aborts CLayerInactive.
Proof.
  apply (aborts_check _ [Ev [D 33 0; D 37 10; U 33 20; D 34 30; U 34 40; D 36 50; D 21 60]] [U 36 70]).
  vm_compute. reflexivity.
Qed.
Print Assumptions C05_abort_inactive.
Definition ex5b_text : str := bs "[global]
chord_hold_timeout = 5000
[main]
z+x = 1
".
(* 33 events while a chord is held back *)
Theorem C05_abort_chord_queue : aborts CChordQueue.
Proof.
  destruct (check_hist_ok 1 (cfg_of ex5b_text) [Ev [D 44 0; D 45 1]]
    (fun k => stopb (kbd_process_events 200 k (taps 16 2)) CChordQueue)) as [k [H1 H2]].
  - vm_compute. reflexivity.
  - exists ex5b_text, (cfg_of ex5b_text), 1%Z, k, (taps 16 2).
    split; [apply parsesb_ok; vm_compute; reflexivity|]. split; auto using stopb_ok.
Qed.
Print Assumptions C05_abort_chord_queue.
(* The limits are 32 queued events, 64 timers and 3 chords, no fewer: a history reaches
   the number, and one event more (for a chord, one chord more) aborts. *)
Definition exact_limit (f : kbd -> nat) (n : nat) (evs : list kev) (x : crash) : Prop :=
  exists text c clk k, config_parse text = Ok (Some c) /\ history c clk k
    /\ f k = n /\ kbd_process_events 200 k evs = Crash x.
Lemma exact_check text f n before evs x : parsesb text = true ->
  check_hist 1 (cfg_of text) [Ev before] (fun k => Nat.eqb (f k) n && stopb (kbd_process_events 200 k evs) x) = true ->
  exact_limit f n evs x.
Proof.
  intros Hp H. apply check_hist_ok in H as [k [H1 H2]]. apply andb_true_iff in H2 as [H2 H3]. apply Nat.eqb_eq in H2.
  exists text, (cfg_of text), 1%Z, k. auto using stopb_ok, parsesb_ok.
Qed.
Theorem C05_limits :
  exact_limit (fun k => List.length (p_queue (k_pend k))) 32 [D 2 100] CPendingQueue
  /\ exact_limit (fun k => List.length (h_queue (k_chord k))) 32 [D 2 100] CChordQueue
  /\ exact_limit (fun k => List.length (k_timeouts k)) 64 [D 50 129] CTimeouts
  /\ exact_limit (fun k => List.length (filter ac_active (k_achords k))) 3 [D 16 6; D 17 7] CActiveChords.
Proof.
  split; [|split; [|split]].
  - apply (exact_check ex5_text _ _ (D 30 0 :: taps 16 1)); vm_compute; reflexivity.
  - apply (exact_check ex5b_text _ _ ([D 44 0; D 45 1] ++ taps 15 2)); vm_compute; reflexivity.
  - apply (exact_check ex5_text _ _ (presses 64 1)); vm_compute; reflexivity.
  - apply (exact_check ex5_text _ _ [D 44 0; D 45 1; D 46 2; D 47 3; D 48 4; D 49 5]); vm_compute; reflexivity.
Qed.
Print Assumptions C05_limits.

(* ---- C10 ------------------------------------------------------------------------------ *)
Theorem C10_one_layout :
  forall text c clk k i j,
    config_parse text = Ok (Some c) -> history c clk k ->
    i <> 0 -> j <> 0 -> layout (k_cfg k) i -> layout (k_cfg k) j -> on k i -> on k j -> i = j.
Proof.
  intros text c clk k i j Hc Hh. apply (history_one_layout _ _ _ (config_parse_inv _ _ Hc) Hh).
Qed.
Print Assumptions C10_one_layout.

(* Pressing a setlayout(l) key leaves exactly l active among the layouts other
   than main (none of them if l is main). *)
Theorem C10_setlayout :
  forall text c clk k fuel code l dl time k' t,
    config_parse text = Ok (Some c) -> history c clk k ->
    ready k code time -> resolves k code (DLayout l) dl ->
    process_event fuel k code true time = Ok (k', t) ->
    forall i, i <> 0 -> layout (k_cfg k) i -> (on k' i <-> i = l).
Proof.
  intros text c clk k fuel code l dl time k' t Hc Hh Hd Hres H i Hi Hl.
  pose proof (history_wf _ _ _ (config_parse_inv _ _ Hc) Hh) as W.
  apply press_ready in H as [d [dl' [k0 [k1 [Hres' [[q [ca ->]] [Hdo Hk]]]]]]]; auto.
  2: apply (reach_times _ _ _ (history_reach _ _ _ Hh)).
  destruct (resolves_unique _ _ _ _ _ _ Hres Hres') as [<- <-].
  unfold calculate_main_loop_timeout in Hk. injection Hk as -> ->.
  unfold do_desc, pd_fuel in Hdo. cbn [process_descriptor pre_macro bind] in Hdo.
  bstep Hdo k2 E. apply Ok_inj in Hdo. subst k1. unfold on. cbn [k_ls set_k_timeouts set_k_last_code].
  unfold setlayout in E. bstep E u Eu. bstep E k3 E3. apply Ok_inj in E. 
  assert (Hcfg : k_cfg k3 = k_cfg k).
  { apply clear_steps in E3. apply steps_cfg in E3 as [-> _]. reflexivity. }
  assert (Hlr : layout_ref (k_cfg k3) l).
  { rewrite Hcfg. assert (Hlk : lookup_descriptor k code = (DLayout l, dl)).
    { destruct (lookup_descriptor k code) as [d' dl'] eqn:El.
      assert (Hcc : is_chord_code code = false).
      { destruct Hd as [[_ Hd] _]. unfold is_chord_code. lia. }
      apply lookup_resolves in El; auto.
      - destruct (resolves_unique _ _ _ _ _ _ Hres El) as [<- <-]. reflexivity.
      - apply (reach_times _ _ _ (history_reach _ _ _ Hh)). }
    pose proof (lookup_ok k code W) as G. rewrite Hlk in G. exact (proj1 G). }
  pose proof (to_layout_active k3 l i Hlr) as G.
  unfold to_layout in G. rewrite E in G. rewrite G. unfold layer_at. rewrite Hcfg.
  unfold layout in Hl. rewrite Hl. cbn [is_layout].
  destruct (Nat.eqb_spec i 0); [congruence|]. destruct (Nat.eqb_spec i l); split; congruence.
Qed.
Print Assumptions C10_setlayout.

Definition ex10_text : str := bs "[main]
q = setlayout(one)
w = setlayout(two)
e = setlayout(main)
[one:layout]
a = b
[two:layout]
a = c
".
(* layout one in force; pressing w replaces it by two *)
Example C10_example :
  exists c clk k k' t,
    config_parse ex10_text = Ok (Some c) /\ history c clk k
    /\ ready k 17%N 20%Z /\ resolves k 17%N (DLayout 7) 0
    /\ layout (k_cfg k) 6 /\ layout (k_cfg k) 7 /\ on k 6
    /\ process_event 5 k 17%N true 20%Z = Ok (k', t) /\ on k' 7 /\ ~ on k' 6.
Proof.
  destruct (check_hist_ok 5 (cfg_of ex10_text) [Ev [D 16 0; U 16 10]]
    (fun k => readyb k 17%N 20%Z && looksb k 17%N (DLayout 7) 0
       && is_layout (ly_type (nth 6 (c_layers (k_cfg k)) zero_layer))
       && is_layout (ly_type (nth 7 (c_layers (k_cfg k)) zero_layer))
       && negb (l_active (k_ls k 6) =? 0)%N
       && okb (process_event 5 k 17%N true 20%Z)
           (fun r => negb (l_active (k_ls (fst r) 7) =? 0)%N && (l_active (k_ls (fst r) 6) =? 0)%N)))
    as [k [Hr Hk]].
  - vm_compute. reflexivity.
  - rewrite !andb_true_iff in Hk. destruct Hk as [[[[[H1 H2] H3] H4] H5] H6].
    apply okb_ok in H6 as [[k' t] [H6 H7]]. cbn [fst] in H7. bsplit.
    exists (cfg_of ex10_text), 5%Z, k, k', t. split; [apply parsesb_ok; vm_compute; reflexivity|].
    split; auto. split; [now apply readyb_ok|].
    split; [eapply looksb_ok; [exact (history_reach _ _ _ Hr)|exact H2]|].
    split; [now apply is_layout_spec|]. split; [now apply is_layout_spec|].
    unfold on. repeat split; auto; congruence.
Qed.

(* ---- C06, recency --------------------------------------------------------------------- *)
(* The activation times compared by the precedence rule of C06 order layers by
   their latest activation as announced in the trace; layouts come before any
   layer ever activated, and main before the layout in force.  (For a clock that
   starts at 2 or later: see C06_first_activation_refuted.) *)
Theorem C06_recency :
  forall text c clk k, config_parse text = Ok (Some c) -> history c clk k -> (2 <= clk)%Z ->
    (forall i j, ~ layout (k_cfg k) i -> ~ layout (k_cfg k) j -> on k i -> on k j ->
       ((act_time k i < act_time k j)%Z <-> activated_before (k_out k) i j))
    /\ (forall i j, layout (k_cfg k) i -> ~ layout (k_cfg k) j -> on k j -> (act_time k i < act_time k j)%Z).
Proof.
  intros text c clk k Hc Hh Hclk.
  pose proof (history_recent _ _ _ (config_parse_inv _ _ Hc) Hh) as [R1 R2 R3 R4 R5].
  assert (Hs : forall i, ~ layout (k_cfg k) i -> on k i -> since_start i (k_out k) <> []).
  { intros i Hi Ho E. now apply (proj2 (R3 i Hi E)). }
  unfold act_time. split.
  - intros i j Hi Hj Oi Oj. apply R5; auto.
  - intros i j Hi Hj Oj. pose proof (R2 i Hi) as [A _]. pose proof (R4 j Hj (Hs j Hj Oj)). lia.
Qed.
Print Assumptions C06_recency.

(* layers one and two both held, one pressed first *)
Example C06_recency_example :
  exists text c clk k, config_parse text = Ok (Some c) /\ history c clk k /\ (2 <= clk)%Z
    /\ ~ layout (k_cfg k) 6 /\ ~ layout (k_cfg k) 7 /\ on k 6 /\ on k 7
    /\ activated_before (k_out k) 6 7 /\ (act_time k 6 < act_time k 7)%Z.
Proof.
  pose (text := bs "[main]
q = layer(one)
w = layer(two)
[one]
[two]
").
  destruct (check_hist_ok 2 (cfg_of text) [Ev [D 17 0; D 16 10; U 17 15; D 17 20]]
    (fun k => negb (is_layout (ly_type (nth 6 (c_layers (k_cfg k)) zero_layer)))
       && negb (is_layout (ly_type (nth 7 (c_layers (k_cfg k)) zero_layer)))
       && negb (l_active (k_ls k 6) =? 0)%N && negb (l_active (k_ls k 7) =? 0)%N
       && Nat.ltb (length (since_start 6 (k_out k))) (length (since_start 7 (k_out k)))
       && (act_time k 6 <? act_time k 7)%Z)) as [k [Hr Hk]].
  - vm_compute. reflexivity.
  - rewrite !andb_true_iff in Hk. destruct Hk as [[[[[H1 H2] H3] H4] H5] H6]. bsplit.
    exists text, (cfg_of text), 2%Z, k. split; [apply parsesb_ok; vm_compute; reflexivity|].
    split; auto. split; [lia|]. unfold layout, on, activated_before.
    repeat split; auto; try lia; intros E; rewrite E in *; discriminate.
Qed.

(* ---- C45, the engine's part --------------------------------------------------------------- *)
(* Counting the activation and deactivation messages of a layer (not a layout)
   gives its activation count. *)
Theorem C45_messages_count :
  forall text c clk k i, config_parse text = Ok (Some c) -> history c clk k -> ~ layout (k_cfg k) i ->
    (Z.of_N (l_active (k_ls k i))
     = (Z.of_nat (messages i true (k_out k)) - Z.of_nat (messages i false (k_out k))) mod 256)%Z.
Proof.
  intros text c clk k i Hc Hh Hi.
  destruct (history_counted _ _ _ (config_parse_inv _ _ Hc) Hh i Hi) as [H1 H2].
  revert H1 H2. generalize (l_active (k_ls k i)), (messages i true (k_out k)), (messages i false (k_out k)).
  intros a b d H1 H2. Z.to_euclidean_division_equations. lia.
Qed.
Print Assumptions C45_messages_count.

(* Two keys hold the layer and one was released: + + -, count 1; the last
   message is a minus though the layer is active. *)
Example C45_messages_example :
  exists text c clk k, config_parse text = Ok (Some c) /\ history c clk k /\ ~ layout (k_cfg k) 6
    /\ k_out k = [OLayer 6 false true; OLayer 6 true true; OLayer 6 true true]
    /\ l_active (k_ls k 6) = 1%N.
Proof.
  pose (text := bs "[main]
q = layer(one)
w = layer(one)
[one]
").
  destruct (check_hist_ok 2 (cfg_of text) [Ev [D 17 0; D 16 10; U 17 15]]
    (fun k => negb (is_layout (ly_type (nth 6 (c_layers (k_cfg k)) zero_layer)))
       && outb (k_out k) [OLayer 6 false true; OLayer 6 true true; OLayer 6 true true]
       && (l_active (k_ls k 6) =? 1)%N)) as [k [Hr Hk]].
  - vm_compute. reflexivity.
  - rewrite !andb_true_iff in Hk. destruct Hk as [[H1 H2] H3]. apply outb_ok in H2. bsplit.
    exists text, (cfg_of text), 2%Z, k. split; [apply parsesb_ok; vm_compute; reflexivity|].
    split; auto. split; [|auto]. unfold layout. intros E; rewrite E in *; discriminate.
Qed.
