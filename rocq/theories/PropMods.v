(* C06, C08, C09: which binding a key uses, and the modifiers around it. *)
From Coq Require Import String.
From Verif Require Import Base Lib Keys Types MacroExec Kbd Config Steps Hist SpecTrace SpecMods
  SpecLookup TraceProofs ModsProofs LookupProofs.
Local Open Scope N_scope.

(* C06: pressing a key performs the action of the binding selected by the
   declarative precedence rule [resolves], and that rule is unambiguous.
   Ties of activation time can only concern layers never activated by a key
   (main and layouts) and, for a clock starting at 1, the first activation:
   see C06_first_activation_refuted. *)
Theorem C06_layer_precedence :
  forall c k fuel code time k' t,
    reach (fun _ => True) c k -> ready k code time ->
    process_event fuel k code true time = Ok (k', t) ->
    exists d dl, resolves k code d dl
      /\ (forall d' dl', resolves k code d' dl' -> d' = d /\ dl' = dl)
      /\ exists k0 k1, (exists q ca, k0 = set_k_cache ca (set_k_chord q k))
           /\ do_desc k0 code d dl true time = Ok k1
           /\ (k', t) = calculate_main_loop_timeout k1 time.
Proof.
  intros c k fuel code time k' t Hr Hd H.
  apply press_ready in H as [d [dl [k0 [k1 [H1 [H2 [H3 H4]]]]]]]; auto.
  - exists d, dl. split; auto. split; eauto.
    intros d' dl' H'. eapply resolves_unique; eauto.
  - apply (reach_times _ _ _ Hr).
Qed.
Print Assumptions C06_layer_precedence.

(* For every state, not only those reached: the lookup itself. *)
Theorem C06_lookup :
  forall k code d dl,
    (forall i, (0 <= l_time (k_ls k i))%Z) -> physical code ->
    (lookup_descriptor k code = (d, dl) <-> resolves k code d dl).
Proof.
  intros k code d dl Ht [Hz Hc].
  assert (Hcc : is_chord_code code = false) by (unfold is_chord_code; lia).
  split.
  - now apply lookup_resolves.
  - intros H. destruct (lookup_descriptor k code) as [d' dl'] eqn:E.
    apply lookup_resolves in E; auto. destruct (resolves_unique _ _ _ _ _ _ H E) as [-> ->]. auto.
Qed.
Print Assumptions C06_lookup.

Definition ex6_cfg : config := cfg_of (bs "[main]
q = layer(one)
w = layer(two)
e = layer(three)
[one]
a = 1
s = 1
d = 1
[two]
a = 2
s = 2
[three]
a = 3
[one+two]
s = 4
").
(* with one and two held, a uses two (the later), s uses the composite one+two,
   d uses one, f itself *)
Example C06_example :
  exists k, reach (fun _ => True) ex6_cfg k
    /\ ready k 30 30
    /\ resolves k 30 (DKey 3 0) 7 /\ resolves k 31 (DKey 5 0) 9 /\ resolves k 32 (DKey 2 0) 6
    /\ resolves k 33 (DKey 33 0) 0
    /\ exists k' t, process_event 5 k 30 true 30%Z = Ok (k', t).
Proof.
  destruct (check_run_ok ex6_cfg [[D 17 0; D 16 10; U 17 15; D 17 20]]
    (fun k => readyb k 30 30 && looksb k 30 (DKey 3 0) 7 && looksb k 31 (DKey 5 0) 9
       && looksb k 32 (DKey 2 0) 6 && looksb k 33 (DKey 33 0) 0
       && okb (process_event 5 k 30 true 30%Z) (fun _ => true))) as [k [Hr Hk]].
  - vm_compute. reflexivity.
  - exists k. rewrite !andb_true_iff in Hk. destruct Hk as [[[[[H1 H2] H3] H4] H5] H6].
    apply okb_ok in H6 as [[k' t] [H6 _]].
    assert (Hr' : reach (fun _ => True) ex6_cfg k) by now apply run_to_reach.
    repeat (split; [eauto using readyb_ok, looksb_ok|]). eauto.
Qed.

(* Recency.  The rule compares activation times; the full claim "the most
   recently activated layer wins" fails for the very first activation of the
   process when a layout is in force: get_time starts at 1, which is also the
   time given to layouts (keyboard.c:447, 833). *)
Definition ex6b_cfg : config := cfg_of (bs "[global]
default_layout = lay
[main]
q = layer(nav)
[nav]
a = 1
[lay:layout]
a = 2
").
(* nav was activated after the layout lay, it is active and binds a, yet a
   types 2 instead of 1 *)
Theorem C06_first_activation_refuted :
  exists c k k' t,
    run_to c k /\ ready k 30 10
    /\ k_out k = [OLayer 6 true true] /\ layer_active k 6 /\ binds k 6 30 (DKey 2 0)
    /\ process_event 5 k 30 true 10%Z = Ok (k', t)
    /\ k_out k' = OKey 3 true :: k_out k.
Proof.
  exists ex6b_cfg.
  destruct (check_run_ok ex6b_cfg [[D 16 0]]
    (fun k => readyb k 30 10 && outb (k_out k) [OLayer 6 true true]
       && Nat.ltb 6 (length (c_layers (k_cfg k))) && negb (l_active (k_ls k 6) =? 0)
       && (if desc_eq_dec (ly_keymap (layer_of k 6) 30) (DKey 2 0) then true else false)
       && okb (process_event 5 k 30 true 10%Z) (fun r => outb (k_out (fst r)) (OKey 3 true :: k_out k))))
    as [k [Hr Hk]].
  - vm_compute. reflexivity.
  - rewrite !andb_true_iff in Hk. destruct Hk as [[[[[H1 H2] H3] H4] H5] H6].
    apply okb_ok in H6 as [[k' t] [H6 H7]]. apply outb_ok in H2, H7.
    exists k, k', t. bsplit. destruct (desc_eq_dec _ _); [|discriminate].
    repeat (split; auto using readyb_ok). discriminate.
Qed.
Print Assumptions C06_first_activation_refuted.

(* C08: at the moment the key of a key sequence goes down, each of the five
   modifiers is down on the host iff it is wanted.  [macros_avoid] keeps keys
   typed behind the engine's back (by multi-step macros) out of the statement. *)
Definition no_raw_keys (ck : N) (c : config) : Prop :=
  macros_avoid ck c /\ forall bit mc, is_modifier bit mc -> macros_avoid mc c.

Theorem C08_modifiers_at_press :
  forall c k fuel code ck mods dl time k' t,
    reach (no_raw_keys ck) c k -> ready k code time ->
    resolves k code (DKey ck mods) dl ->
    (forall bit, ~ is_modifier bit ck) -> ck <> K_NOOP -> ck <> K_EXTERNAL_MOUSE ->
    process_event fuel k code true time = Ok (k', t) ->
    exists notes before,
      k_out k' = notes ++ OKey ck true :: before ++ k_out k
      /\ forallb layer_note notes = true
      /\ host_down (before ++ k_out k) ck = false
      /\ forall bit mc, is_modifier bit mc ->
           (host_down (before ++ k_out k) mc = true <-> wanted k dl mods bit).
Proof.
  intros c k fuel code ck mods dl time k' t Hr Hd Hres Hm H1 H2 H.
  apply press_ready in H as [d [dl' [k0 [k1 [Hres' [[q [ca ->]] [Hdo Hk]]]]]]]; auto.
  2: apply (reach_times _ _ _ Hr).
  destruct (resolves_unique _ _ _ _ _ _ Hres Hres') as [<- <-].
  unfold do_desc, pd_fuel in Hdo.
  apply keyseq_press_modifiers in Hdo; auto.
  - unfold calculate_main_loop_timeout in Hk. injection Hk as -> ->. exact Hdo.
  - apply (reach_agrees _ c k ck) in Hr; auto. unfold no_raw_keys. tauto.
  - intros bit mc Hb. apply (reach_agrees _ c k mc) in Hr; auto. unfold no_raw_keys. intros c0 [_ Hx]. eauto.
Qed.
Print Assumptions C08_modifiers_at_press.

Definition ex8_cfg : config := cfg_of (bs "[main]
q = layer(ctl)
w = layer(alt)
a = layer(one)
[one:S]
s = C-x
[ctl:C]
d = S-y
").
(* w and a held: s types alt (from its layer) + control + x, without the shift
   of the layer supplying the binding *)
Example C08_example :
  exists k k' t, reach (no_raw_keys 45) ex8_cfg k /\ ready k 31 30
    /\ resolves k 31 (DKey 45 8) 6
    /\ process_event 5 k 31 true 30%Z = Ok (k', t)
    /\ k_out k' = [OKey 45 true; OKey 29 true; OKey 42 false] ++ k_out k
    /\ host_down (k_out k') 56 = true.
Proof.
  destruct (check_run_ok ex8_cfg [[D 17 0; D 30 10]]
    (fun k => readyb k 31 30 && looksb k 31 (DKey 45 8) 6
       && okb (process_event 5 k 31 true 30%Z)
           (fun r => outb (k_out (fst r)) ([OKey 45 true; OKey 29 true; OKey 42 false] ++ k_out k)
                     && host_down (k_out (fst r)) 56))) as [k [Hr Hk]].
  - vm_compute. reflexivity.
  - rewrite !andb_true_iff in Hk. destruct Hk as [[H1 H2] H3].
    apply okb_ok in H3 as [[k' t] [H3 H4]]. apply andb_true_iff in H4 as [H4 H5]. apply outb_ok in H4.
    assert (Hr' : reach (no_raw_keys 45) ex8_cfg k).
    { apply run_to_reach; auto. split; [|intros bit mc _]; intros m e Hm; vm_compute in Hm; contradiction. }
    exists k, k', t. repeat (split; eauto using readyb_ok, looksb_ok).
Qed.

(* C09: whatever the engine does to the modifiers when layers or bindings
   change (guard enabled, not inhibited) contains no lone tap of alt, altgr or
   meta: such a modifier is released only after some other key was pressed
   since, or with control down. *)
Theorem C09_guard :
  forall k excl mods,
    c_no_guard (k_cfg k) = false ->
    exists evs, k_out (update_mods false k excl mods) = rev evs ++ k_out k
      /\ guarded (k_last_out k) (k_ks k 29) evs.
Proof.
  intros k excl mods H. apply (update_mods_gseq k excl mods) in H as [evs [H1 [H2 _]]]. eauto.
Qed.
Print Assumptions C09_guard.

(* The release of a layer key after another key was pressed. *)
Theorem C09_layer_release :
  forall c k fuel code l dl time k' t,
    reach (fun _ => True) c k -> c_no_guard (k_cfg k) = false ->
    code <> 0 -> idle k -> unchorded k code -> nothing_due k time ->
    held k code (DLayer l) dl -> k_last_code k <> code ->
    process_event fuel k code false time = Ok (k', t) ->
    exists evs, k_out k' = rev evs ++ k_out k
      /\ guarded (k_last_out k) (k_ks k 29) evs.
Proof.
  intros c k fuel code l dl time k' t _ Hg Hc Hi Hu Hn Hh Hl H.
  apply (release_idle fuel k code time (DLayer l) dl) in H as [k0 [k1 [[q [ca ->]] [Hdo Hk]]]]; auto.
  unfold calculate_main_loop_timeout in Hk. injection Hk as -> ->. cbn [k_out set_k_timeouts].
  unfold do_desc, pd_fuel in Hdo. cbn [process_descriptor pre_macro bind pd_layer] in Hdo.
  bstep Hdo kx E. apply Ok_inj in Hdo. subst kx.
  unfold pd_layer in E. bstep E ky Ey. apply Ok_inj in E. subst k1.
  unfold deactivate_layer in Ey. bauto Ey.
  match goal with |- context [update_mods _ ?kk _ _] => set (ky := kk) end.
  replace (k_last_code ky =? code) with false.
  - destruct (C09_guard ky None 0 Hg) as [evs [H1 H2]].
    exists (OLayer l false (indicator
       (set_lsi l (set_l_active (l_active (k_ls k l) - 1) (k_ls k l)) (set_k_cache ca (set_k_chord q k)))) :: evs).
    split; [|exact H2]. rewrite H1. cbn [rev]. rewrite <- app_assoc. reflexivity.
  - symmetry. apply N.eqb_neq. exact Hl.
Qed.
Print Assumptions C09_layer_release.

Definition ex9_cfg : config := cfg_of (bs "[main]
q = layer(alt)
").
(* alt goes down with its layer, then a key that types nothing is pressed; when
   the layer key is released control is interposed *)
Example C09_example :
  exists k k' t, reach (fun _ => True) ex9_cfg k /\ c_no_guard (k_cfg k) = false
    /\ idle k /\ unchorded k 16 /\ nothing_due k 20%Z
    /\ held k 16 (DLayer 4) 0 /\ k_last_code k <> 16
    /\ process_event 5 k 16 false 20%Z = Ok (k', t)
    /\ k_out k' = [OKey 29 false; OKey 56 false; OKey 29 true; OLayer 4 false false] ++ k_out k.
Proof.
  destruct (check_run_ok ex9_cfg [[D 16 0; D 195 10]]
    (fun k => negb (c_no_guard (k_cfg k)) && idleb k && unchordedb k 16 && quietb k 20
       && heldb k 16 (DLayer 4) 0 && negb (k_last_code k =? 16)
       && okb (process_event 5 k 16 false 20%Z)
           (fun r => outb (k_out (fst r))
              ([OKey 29 false; OKey 56 false; OKey 29 true; OLayer 4 false false] ++ k_out k)))) as [k [Hr Hk]].
  - vm_compute. reflexivity.
  - rewrite !andb_true_iff in Hk. destruct Hk as [[[[[[H1 H2] H3] H4] H5] H6] H7].
    apply okb_ok in H7 as [[k' t] [H7 H8]]. apply outb_ok in H8. bsplit.
    exists k, k', t. split; [now apply run_to_reach|].
    repeat (split; eauto using idleb_ok, unchordedb_ok, quietb_ok, heldb_ok).
Qed.
