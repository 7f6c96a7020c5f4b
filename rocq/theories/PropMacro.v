(* C18 (overloadi), C28 (macro repetition), C29 (commands). *)
From Coq Require Import String.
From Verif Require Import Base Lib Keys Types MacroExec Kbd Config Steps Hist SpecTrace SpecMods SpecLookup
  SpecHist SpecActions SpecKept TraceProofs ModsProofs LookupProofs Engine SpecWf Wf WfHist ActProofs StepProofs
  OneProofs CacheProofs Inv ClassInv KeptProofs CmdProofs TimerProofs ExTools.
Local Open Scope list_scope.
Local Open Scope N_scope.
Local Notation length := List.length.

(* ---- C18 ------------------------------------------------------------------------- *)
(* the action overloadi(a1, a2, t) chooses at the time of the press *)
Definition chosen (k : kbd) (a1 a2 : nat) (t time : Z) (a : desc) : Prop :=
  (t <= time - k_last_simple k -> a = nth a2 (c_descs (k_cfg k)) DNone)%Z
  /\ (time - k_last_simple k < t -> a = nth a1 (c_descs (k_cfg k)) DNone)%Z.

Lemma chosen_desc k a1 a2 t time a :
  desc_at k (if (t <=? time - k_last_simple k)%Z then a2 else a1) = Ok a -> chosen k a1 a2 t time a.
Proof.
  unfold desc_at, chosen. destruct (_ <? _); [|discriminate]. intros H. apply Ok_inj in H. subst a.
  destruct (Z.leb_spec t (time - k_last_simple k)); split; intros; auto; lia.
Qed.

Lemma find_replace (P : centry -> Prop) code d : forall c i, cache_find c code 0 = Some i ->
  nth i (upd i (mkCe (ce_code (nth i c zero_ce)) d (ce_dl (nth i c zero_ce)) (ce_layer (nth i c zero_ce))) c) zero_ce
  = mkCe (ce_code (nth i c zero_ce)) d (ce_dl (nth i c zero_ce)) (ce_layer (nth i c zero_ce)).
Proof.
  intros c i H. apply cache_find_at in H as [_ [H _]]. apply nth_upd_same. lia.
Qed.

(* The press performs the chosen action, in the state in which the key is noted as
   held, and afterwards the key's remembered binding is the chosen action. *)
Theorem C18_choice :
  forall (G : config -> Prop) c fuel k code time a1 a2 t dl k' t',
  reach G c k -> ready k code time -> resolves k code (DOverloadI a1 a2 t) dl ->
  process_event fuel k code true time = Ok (k', t') ->
  exists a k0 k1 f, chosen k a1 a2 t time a
    /\ pressed_state k k0 code (DOverloadI a1 a2 t) dl
    /\ process_descriptor f k0 code a dl true time = Ok k1
    /\ k_out k' = k_out k1 /\ k_ls k' = k_ls k1 /\ k_ks k' = k_ks k1 /\ k_pend k' = k_pend k1
    /\ exists l, remembered k' code a dl l.
Proof.
  intros G c fuel k code time a1 a2 t dl k' t' Hr Hy Hres H.
  pose proof (press_do _ _ _ _ _ _ _ _ (proj2 (reach_times _ _ _ Hr)) Hy Hres H) as [k0 [k2 [P [E ->]]]].
  pose proof P as [q [i [Ek0 [Hi [Hz Hq]]]]].
  apply pd_unfold in E as [ka [kb [E1 [-> E2]]]]. apply Ok_inj in E1. subst ka.
  bstep E2 a Ea. bstep E2 k1 E1. apply Ok_inj in E2. subst kb.
  exists a, k0, k1. eexists. split; [subst k0; apply chosen_desc; exact Ea|]. split; [exact P|]. split; [exact E1|].
  assert (Hin : In (mkCe code (DOverloadI a1 a2 t) dl 0) (k_cache k0)).
  { subst k0. cbn [k_cache set_k_cache]. rewrite <- (nth_upd_same i (mkCe code (DOverloadI a1 a2 t) dl 0) zero_ce (k_cache k) Hi) at 1.
    apply nth_In. now rewrite upd_length. }
  assert (U : uniq (k_cache k0)).
  { subst k0. cbn [k_cache set_k_cache]. apply uniq_upd; [apply (reach_uniq _ _ _ Hr)|exact Hi|].
    right. right. apply Hy. }
  assert (V : evols True code k0 k1) by (eapply (pd_evols True); eauto).
  assert (R : exists j d' l, cache_find (k_cache k1) code 0 = Some j
             /\ nth j (k_cache k1) zero_ce = mkCe code d' dl l).
  { assert (G1 : exists d' l, In (mkCe code d' dl l) (k_cache k1)).
    { unfold evols in V. clear -Hin V. induction V as [|e e' r r' [V1 [V2 V3]] V IH]; [destruct Hin|].
      destruct Hin as [->|Hin].
      - exists (ce_d e'), (ce_layer e'). left. destruct e'; cbn in *; congruence.
      - destruct (IH Hin) as [d' [l Hl]]. exists d', l. now right. }
    destruct G1 as [d' [l Hl]].
    destruct (remembered_find k1 code d' dl l) as [j [J1 J2]]; eauto.
    - eapply evols_uniq; eauto.
    - apply Hy. }
  destruct R as [j [d' [l [R1 R2]]]]. unfold cache_replace_d. rewrite R1, R2. cbn [ce_code ce_dl ce_layer].
  repeat split. exists l. unfold remembered. cbn [k_cache set_k_timeouts set_k_last_code set_k_cache].
  apply cache_find_at in R1 as [_ [R1 _]].
  rewrite <- (nth_upd_same j (mkCe code a dl l) zero_ce (k_cache k1)) at 1 by lia.
  apply nth_In. rewrite upd_length. lia.
Qed.

(* If the chosen action is a key sequence, its key is down afterwards (and, being
   the remembered binding, C07-like its release releases that key). *)
Theorem C18_key :
  forall c fuel k code time a1 a2 t dl k' t' o m,
  reach (macros_avoid o) c k -> ready k code time -> resolves k code (DOverloadI a1 a2 t) dl ->
  process_event fuel k code true time = Ok (k', t') ->
  chosen k a1 a2 t time (DKey o m) -> o <> K_NOOP -> o <> K_EXTERNAL_MOUSE ->
  host_down (k_out k') o = true.
Proof.
  intros c fuel k code time a1 a2 t dl k' t' o m Hr Hy Hres H Hc N1 N2.
  destruct (C18_choice _ _ _ _ _ _ _ _ _ _ _ _ Hr Hy Hres H) as [a [k0 [k1 [f [C1 [P [E [Eo [_ [Ek _]]]]]]]]]].
  assert (Ha : a = DKey o m).
  { destruct C1 as [A B], Hc as [A' B']. destruct (Z.le_gt_cases t (time - k_last_simple k)) as [L|L].
    - rewrite (A L). symmetry. auto.
    - rewrite (B L). symmetry. auto. }
  subst a.
  assert (Hr' : reach (macros_avoid o) c k') by (eapply reach_events; [exact Hr|apply one_event, H]).
  pose proof (reach_agrees _ _ _ o (fun c H => H) Hr') as Ha. unfold agrees in Ha. rewrite Ha.
  destruct f; [discriminate|]. apply pd_unfold in E as [ka [kb [E1 [-> E2]]]]. apply Ok_inj in E1. subst ka.
  rewrite Ek. unfold pd_key in E2. bstep E2 k2 E3. apply Ok_inj in E2. subst kb.
  apply clear_oneshot_ok in E3 as [ls [ns [-> _]]].
  set (kb := update_mods _ _ _ _) in *.
  assert (X : k_ks (send_key kb o true) o = true).
  { unfold send_key. replace ((o =? K_NOOP) || (o =? K_EXTERNAL_MOUSE)) with false by lia.
    cbn [k_ks set_k_last_out]. destruct (k_ks kb o) eqn:Eb; cbn [Bool.eqb]; [exact Eb|].
    cbn [k_ks emit set_k_out set_k_ks]. unfold fupd. now rewrite N.eqb_refl. }
  destruct ((m =? 0) || (m =? MOD_SHIFT)); exact X.
Qed.

Lemma release_kept (G : config -> Prop) c code d dl l k1 k2 fuel2 time2 k3 t3 :
  reach G c k1 -> physical code -> decided k1 code -> remembered k1 code d dl l ->
  l = 0%nat \/ (forall c, G c -> swap_free c) ->
  meanwhile G code k1 k2 ->
  h_state (k_chord k2) = CsInactive -> unchorded k2 code -> nothing_due k2 time2 ->
  process_event fuel2 k2 code false time2 = Ok (k3, t3) ->
  exists q ca k', do_desc (set_k_cache ca (set_k_chord q k2)) code d dl false time2 = Ok k'
    /\ k3 = set_k_timeouts (filter (fun x => (time2 <? x)%Z) (k_timeouts k')) k'.
Proof.
  intros Hr1 P D1 R1 Hcl M Hs Hu Hd H2.
  pose proof (reach_uniq _ _ _ Hr1) as [U1 A1].
  assert (K : exists sw, (~ sw \/ l = 0%nat) /\ (sw \/ forall c, G c -> swap_free c)
              /\ kept sw code d dl l k1).
  { destruct Hcl as [Hn|Hsf].
    - exists True. split; [auto|]. split; [auto|]. split; [repeat split; auto|]. split; [exact R1|apply D1].
    - exists False. split; [auto|]. split; [auto|]. split; [|split; [exact R1|apply D1]].
      split; [exact U1|split; [exact A1|]]. right. eapply reach_alld; [apply nonswap_closed| |exact Hr1].
      intros c0 Hc0. apply swap_free_all. auto. }
  destruct K as [sw [K1 [K2 K3]]].
  destruct (meanwhile_kept sw code d dl l (proj1 P) K1 G k1 k2 P K2 M K3 D1) as [K4 D2].
  destruct K4 as [[U2 _] [R2 _]].
  destruct (release_decided _ _ _ _ _ _ _ _ _ U2 (proj1 P) R2 D2 Hs Hu Hd H2) as [q [ca [k' [_ [E1 E2]]]]].
  eauto.
Qed.

(* The release performs the release part of the chosen action. *)
Theorem C18_release :
  forall (G : config -> Prop) c fuel k code time a1 a2 t dl k1 t1 a k2 fuel2 time2 k3 t3,
  reach G c k -> ready k code time -> resolves k code (DOverloadI a1 a2 t) dl ->
  process_event fuel k code true time = Ok (k1, t1) ->
  chosen k a1 a2 t time a -> fixed_at_press a -> (forall c, G c -> swap_free c) ->
  meanwhile G code k1 k2 ->
  h_state (k_chord k2) = CsInactive -> unchorded k2 code -> nothing_due k2 time2 ->
  process_event fuel2 k2 code false time2 = Ok (k3, t3) ->
  exists q ca k', do_desc (set_k_cache ca (set_k_chord q k2)) code a dl false time2 = Ok k'
    /\ k3 = set_k_timeouts (filter (fun x => (time2 <? x)%Z) (k_timeouts k')) k'.
Proof.
  intros G c fuel k code time a1 a2 t dl k1 t1 a k2 fuel2 time2 k3 t3 Hr Hy Hres H Hc Hf HG M Hs Hu Hd H2.
  destruct (C18_choice _ _ _ _ _ _ _ _ _ _ _ _ Hr Hy Hres H)
    as [a' [k0 [kx [f [C1 [P [E [_ [_ [_ [Ep [l R]]]]]]]]]]]].
  assert (Ha : a' = a).
  { destruct C1 as [A B], Hc as [A' B']. destruct (Z.le_gt_cases t (time - k_last_simple k)) as [L|L].
    - rewrite (A L). symmetry. auto.
    - rewrite (B L). symmetry. auto. }
  subst a'.
  assert (Hr1 : reach G c k1) by (eapply reach_events; [exact Hr|apply one_event, H]).
  assert (D1 : decided k1 code).
  { pose proof (pd_fixed_cp _ _ _ _ _ _ _ Hf E) as [C2 _].
    pose proof (pd_frame _ _ _ _ _ _ _ _ E) as [_ [_ [F3 [_ [F5 _]]]]].
    pose proof (press_do _ _ _ _ _ _ _ _ (proj2 (reach_times _ _ _ Hr)) Hy Hres H) as [k0' [k2' [P' [E' Ek1]]]].
    destruct Hy as [[Hc0 Hcc] [[Hp Hsi] _]].
    destruct P as [q [i [-> [Hi [Hz Hq]]]]]. destruct P' as [q' [i' [-> [Hi' [Hz' Hq']]]]].
    pose proof (pd_frame _ _ _ _ _ _ _ _ E') as [_ [_ [F3' _]]].
    unfold decided. rewrite Ep. split; [|split].
    - rewrite C2. cbn [k_pend set_k_cache set_k_chord]. rewrite Hp. auto.
    - rewrite F5. cbn [k_pend set_k_cache set_k_chord]. rewrite (reach_pqueue _ _ _ Hr Hp). intros e [].
    - subst k1. intros [Hx|Hx]; cbn [k_chord set_k_timeouts] in Hx; rewrite F3' in Hx;
        cbn [k_chord set_k_cache set_k_chord] in Hx; congruence. }
  exact (release_kept G c code a dl l k1 k2 fuel2 time2 k3 t3 Hr1 (proj1 Hy) D1 R (or_intror HG) M Hs Hu Hd H2).
Qed.

(* The clock overloadi consults: the press of a key sequence without modifiers or
   with shift alone sets it, other key sequences do not. *)
Theorem C18_clock :
  forall (G : config -> Prop) c fuel k code time o m dl k' t',
  reach G c k -> ready k code time -> resolves k code (DKey o m) dl ->
  process_event fuel k code true time = Ok (k', t') ->
  k_last_simple k' = if (m =? 0) || (m =? 4) then time else k_last_simple k.
Proof.
  intros G c fuel k code time o m dl k' t' Hr Hy Hres H.
  destruct (press_do _ _ _ _ _ _ _ _ (proj2 (reach_times _ _ _ Hr)) Hy Hres H) as [k0 [k1 [P [E ->]]]].
  destruct P as [q [i [-> [Hi [Hz Hq]]]]].
  apply pd_unfold in E as [ka [kb [E1 [-> E2]]]]. apply Ok_inj in E1. subst ka.
  unfold pd_key in E2. bstep E2 k2 E3. apply Ok_inj in E2. subst kb.
  change MOD_SHIFT with 4. cbn [k_last_simple set_k_timeouts set_k_last_code].
  destruct ((m =? 0) || (m =? 4)); [reflexivity|].
  apply clear_oneshot_ok in E3 as [ls [ns [-> _]]].
  cbn [k_last_simple set_k_oneshot_to set_k_latch lsn set_k_out set_k_ls].
  match goal with |- context [send_key ?a ?b ?c] =>
      destruct (send_key_only a b c) as [l1 [s1 [o1 ->]]] end.
  match goal with |- context [update_mods ?a ?b ?c ?d] =>
      destruct (update_mods_only a b c d) as [l2 [s2 [o2 ->]]] end.
  destruct (k_ks _ o); [|reflexivity].
  match goal with |- context [send_key ?a ?b ?c] =>
      destruct (send_key_only a b c) as [l3 [s3 [o3 ->]]] end. reflexivity.
Qed.

(* ---- C28 ------------------------------------------------------------------------- *)
(* the n-th macro of the configuration *)
Definition macro_no (k : kbd) (m : nat) : macro := nth m (c_macros (k_cfg k)) [].

Lemma macro_at_no k m mm : macro_at k m = Ok mm -> mm = macro_no k m.
Proof. unfold macro_at, macro_no. destruct (_ <? _)%nat; [|discriminate]. intros H. now apply Ok_inj in H. Qed.

(* The press executes the macro once, and arranges the first repetition. *)
Theorem C28_press :
  forall (G : config -> Prop) c fuel k code time d m first again dl k' t',
  reach G c k -> ready k code time -> resolves k code d dl -> macro_of k d m first again ->
  process_event fuel k code true time = Ok (k', t') ->
  k_amacro k' = Some m /\ k_macro_to k' = (time + first)%Z /\ k_repeat k' = again /\ k_amacro_layer k' = dl
  /\ ((0 < first)%Z -> In (time + first)%Z (k_timeouts k'))
  /\ exists k0, oneshots_ended k k0 /\ k_ks k0 = k_ks k /\ commands (k_out k0) = commands (k_out k)
       /\ k_out k' = k_out (execute_macro k0 dl (macro_no k m)).
Proof.
  intros G c fuel k code time d m first again dl k' t' Hr Hy Hres Hm H.
  destruct (press_do _ _ _ _ _ _ _ _ (proj2 (reach_times _ _ _ Hr)) Hy Hres H) as [k0 [k1 [P [E ->]]]].
  destruct P as [q [i [-> [Hi [Hz Hq]]]]].
  apply pd_unfold in E as [ka [kb [E1 [-> E2]]]].
  assert (E1' : ka = set_k_cache (upd i (mkCe code d dl 0) (k_cache k)) (set_k_chord q k)).
  { destruct Hm as [[-> _]| ->]; apply Ok_inj in E1; congruence. }
  subst ka.
  assert (E : pd_macro (set_k_cache (upd i (mkCe code d dl 0) (k_cache k)) (set_k_chord q k)) m first again dl true time = Ok kb).
  { destruct Hm as [[-> [-> ->]]| ->]; exact E2. }
  clear E1 E2. unfold pd_macro in E. bstep E mm Em. bstep E k2 E3. apply macro_at_no in Em.
  pose proof (clear_oneshot_ended _ _ E3) as Ee. apply (ended_ls _ k) in Ee; [|reflexivity..].
  pose proof (clear_oneshot_ncmd _ _ E3) as Ec.
  apply clear_oneshot_ok in E3 as [ls [ns [-> _]]].
  apply schedule_ok in E as ->.
  cbn [k_amacro k_macro_to k_repeat k_amacro_layer set_k_timeouts set_k_last_code k_timeouts set_k_macro_to
    set_k_amacro_layer set_k_amacro k_out].
  match goal with |- context [execute_macro ?x ?y ?z] => destruct (execute_macro_only x y z) as [l1 [s1 [o1 Ex]]] end.
  split; [reflexivity|]. split; [reflexivity|]. split; [rewrite Ex; reflexivity|]. split; [reflexivity|].
  split.
  - intros L. apply filter_In. split; [apply in_or_app; right; left; reflexivity|lia].
  - eexists. split; [exact Ee|]. split; [reflexivity|]. split; [exact Ec|].
    replace (macro_no k m) with mm by exact Em. reflexivity.
Qed.

(* A timer tick before the time set does not repeat the macro. *)
Theorem C28_not_early :
  forall fuel k time k' t,
  idle k -> k_oneshot_to k = 0%Z \/ (time < k_oneshot_to k)%Z -> (time < k_macro_to k)%Z ->
  process_event fuel k 0 false time = Ok (k', t) ->
  k_out k' = k_out k /\ k_amacro k' = k_amacro k /\ k_macro_to k' = k_macro_to k.
Proof.
  intros fuel k time k' t [Hp Hs] Ho Hm H. destruct fuel; [discriminate|].
  apply process_event_open in H as [k1 [E H]]; [|split; auto|left; exact Hp].
  unfold rest_step in E. bstep E k3 E3. bstep E k4 E4.
  unfold expire_oneshot in E3. cbn [k_oneshot_to chord_seen set_k_chord] in E3.
  replace (negb (k_oneshot_to k =? 0)%Z && (k_oneshot_to k <=? time)%Z) with false in E3 by lia.
  apply Ok_inj in E3. subst k3. unfold run_active_macro in E4. cbn [k_amacro chord_seen set_k_chord k_macro_to] in E4.
  cbn [N.eqb negb] in E4. replace (k_macro_to k <=? time)%Z with false in E4 by lia.
  assert (E5 : k4 = chord_seen k 0 false time) by (destruct (k_amacro k); now apply Ok_inj in E4).
  subst k4. cbn [handle_key N.eqb] in E. apply Ok_inj in E. subst k1.
  unfold calculate_main_loop_timeout in H. apply pair_equal_spec in H as [-> _]. repeat split.
Qed.

(* A tick at or after it executes the macro once more and sets the next time to
   the repetition interval from now. *)
Theorem C28_repeats :
  forall fuel k time k' t m,
  idle k -> k_oneshot_to k = 0%Z \/ (time < k_oneshot_to k)%Z ->
  k_amacro k = Some m -> (k_macro_to k <= time)%Z ->
  process_event fuel k 0 false time = Ok (k', t) ->
  (exists q, k_out k' = k_out (execute_macro (set_k_chord q k) (k_amacro_layer k) (macro_no k m)))
  /\ k_amacro k' = Some m /\ k_amacro_layer k' = k_amacro_layer k
  /\ k_macro_to k' = (time + k_repeat k)%Z /\ k_repeat k' = k_repeat k
  /\ ((0 < k_repeat k)%Z -> In (time + k_repeat k)%Z (k_timeouts k')).
Proof.
  intros fuel k time k' t m [Hp Hs] Ho Ha Hm H. destruct fuel; [discriminate|].
  apply process_event_open in H as [k1 [E H]]; [|split; auto|left; exact Hp].
  unfold rest_step in E. bstep E k3 E3. bstep E k4 E4.
  unfold expire_oneshot in E3. cbn [k_oneshot_to chord_seen set_k_chord] in E3.
  replace (negb (k_oneshot_to k =? 0)%Z && (k_oneshot_to k <=? time)%Z) with false in E3 by lia.
  apply Ok_inj in E3. subst k3. unfold run_active_macro in E4.
  cbn [k_amacro k_amacro_layer chord_seen set_k_chord k_macro_to] in E4. rewrite Ha in E4.
  cbn [N.eqb negb] in E4. replace (k_macro_to k <=? time)%Z with true in E4 by lia.
  bstep E4 mm Em. apply macro_at_no in Em. cbn [handle_key N.eqb] in E. apply Ok_inj in E. subst k1.
  apply schedule_ok in E4. subst k4. unfold calculate_main_loop_timeout in H. apply pair_equal_spec in H as [-> _].
  match goal with |- context [execute_macro ?x ?y ?z] =>
    destruct (execute_macro_only x y z) as [l1 [s1 [o1 Ex]]] end.
  split.
  { eexists. change (macro_no k m) with (macro_no (chord_seen k 0 false time) m). rewrite <- Em. reflexivity. }
  rewrite Ex. cbn [k_amacro set_k_timeouts set_k_macro_to kk set_k_out set_k_ks set_k_last_out chord_seen set_k_chord
     k_amacro_layer k_macro_to k_repeat k_timeouts]. repeat (split; [auto|]).
  intros L. apply filter_In. split; [apply in_or_app; right; left; reflexivity|lia].
Qed.

(* A key event stops the repetition, and is then handled as if no macro had been
   active. *)
Theorem C28_stops :
  forall fuel k code pressed time k' t,
  idle k -> unchorded k code -> code <> 0 -> k_oneshot_to k = 0%Z \/ (time < k_oneshot_to k)%Z ->
  process_event fuel k code pressed time = Ok (k', t) ->
  exists k3, k_amacro k3 = None /\ k_ls k3 = k_ls k /\ k_cache k3 = k_cache k /\ k_cfg k3 = k_cfg k /\ idle k3
    /\ process_event fuel k3 code pressed time = Ok (k', t).
Proof.
  intros fuel k code pressed time k' t [Hp Hs] Hu Hz Ho H. destruct fuel; [discriminate|].
  apply process_event_open in H as [k1 [E H]]; [|split; auto|left; exact Hp].
  unfold rest_step in E. bstep E k3 E3. bstep E k4 E4.
  unfold expire_oneshot in E3. cbn [k_oneshot_to chord_seen set_k_chord] in E3.
  replace (negb (k_oneshot_to k =? 0)%Z && (k_oneshot_to k <=? time)%Z) with false in E3 by lia.
  apply Ok_inj in E3. subst k3.
  assert (E4' : k_amacro k4 = None /\ exists l s o, k4 = kk l s o (set_k_amacro None (chord_seen k code pressed time))).
  { unfold run_active_macro in E4. cbn [k_amacro chord_seen set_k_chord] in E4.
    replace (negb (code =? 0)) with true in E4 by lia.
    destruct (k_amacro k) eqn:Ea; apply Ok_inj in E4; subst k4.
    - match goal with |- context [update_mods ?a ?b ?c ?d] =>
        destruct (update_mods_only a b c d) as [l2 [s2 [o2 ->]]] end. split; [reflexivity|eauto].
    - split; [exact Ea|]. exists (k_last_out k), (k_ks k), (k_out k). clear -Ea. destruct k; cbn in Ea. subst. reflexivity. }
  clear E4. destruct E4' as [Em [l [s [o E4]]]]. exists k4.
  assert (F : k_ls k4 = k_ls k /\ k_cache k4 = k_cache k /\ k_cfg k4 = k_cfg k /\ idle k4
     /\ k_achords k4 = k_achords k /\ k_oneshot_to k4 = k_oneshot_to k
     /\ k_chord k4 = k_chord (chord_seen k code pressed time)).
  { subst k4. repeat split; auto. }
  destruct F as [F1 [F2 [F3 [F4 [F5 [F6 F7]]]]]]. repeat (split; [assumption|]).
  cbn [process_event]. rewrite process_event_plan.
  rewrite chord_plan_open.
  2:{ split; [apply F4|]. right. destruct Hu as [U1 U2]. split.
      - intros i ch [L1 L2] Hch. apply (U1 i ch).
        + split; [now rewrite <- F3|]. now rewrite <- F1.
        + unfold layer_of in *. rewrite F3 in Hch. exact Hch.
      - rewrite F5. exact U2. }
  assert (Ecs : chord_seen k4 code pressed time = k4).
  { unfold chord_seen. rewrite F7. cbn [chord_seen k_chord set_k_chord].
    replace (set_k_chord _ k4) with (set_k_chord (k_chord k4) k4); [apply set_same_chord|].
    rewrite F7. unfold chord_seen. cbn [k_chord set_k_chord]. destruct (k_chord k). reflexivity. }
  rewrite Ecs. cbn [bind run_plan]. unfold after_chord, pending_plan.
  destruct F4 as [-> _]. cbn [N.eqb bind run_pplan]. unfold rest_step, expire_oneshot.
  rewrite F6. replace (negb (k_oneshot_to k =? 0)%Z && (k_oneshot_to k <=? time)%Z) with false by lia.
  cbn [bind]. unfold run_active_macro. rewrite Em. cbn [bind]. rewrite E. cbn [bind]. now rewrite H.
Qed.

(* ---- C29 ------------------------------------------------------------------------- *)
(* The press of a key bound to a command runs that command, once. *)
Theorem C29_press :
  forall (G : config -> Prop) c fuel k code time x dl k' t',
  reach G c k -> ready k code time -> resolves k code (DCommand x) dl ->
  process_event fuel k code true time = Ok (k', t') ->
  commands (k_out k') = nth x (c_cmds (k_cfg k)) [] :: commands (k_out k).
Proof.
  intros G c fuel k code time x dl k' t' Hr Hy Hres H.
  destruct (press_do _ _ _ _ _ _ _ _ (proj2 (reach_times _ _ _ Hr)) Hy Hres H) as [k0 [k1 [P [E ->]]]].
  destruct P as [q [i [-> [Hi [Hz Hq]]]]].
  apply pd_unfold in E as [ka [kb [E1 [-> E2]]]]. apply Ok_inj in E1. subst ka.
  bstep E2 cmd Ec. bstep E2 k2 E3. apply Ok_inj in E2. subst kb. apply cmd_at_nth in Ec.
  apply clear_oneshot_ncmd in E3.
  pose proof (update_mods_ncmd false k2 None 0) as Eu.
  cbn [k_out set_k_timeouts set_k_last_code]. unfold ncmd in *. rewrite Eu, E3, Ec. reflexivity.
Qed.

(* The press of a key bound to anything else, a release, and a timer tick run no
   command (configurations that nest no command in another action). *)
Definition no_nested_commands (k : kbd) : Prop := forall d, In d (c_descs (k_cfg k)) -> cmd_free d.
Theorem C29_press_other :
  forall (G : config -> Prop) c fuel k code time d dl k' t',
  reach G c k -> ready k code time -> resolves k code d dl -> (forall x, d <> DCommand x) -> no_nested_commands k ->
  process_event fuel k code true time = Ok (k', t') ->
  commands (k_out k') = commands (k_out k).
Proof.
  intros G c fuel k code time d dl k' t' Hr Hy Hres Hd Hn H.
  destruct (press_do _ _ _ _ _ _ _ _ (proj2 (reach_times _ _ _ Hr)) Hy Hres H) as [k0 [k1 [P [E ->]]]].
  destruct P as [q [i [-> [Hi [Hz Hq]]]]]. apply pd_cmds in E; [|exact Hn].
  rewrite own_command_free in E by exact Hd. exact E.
Qed.
Theorem C29_others :
  forall fuel k code pressed time k' t',
  idle k -> unchorded k code \/ code = 0 -> pressed = false \/ code = 0 -> no_nested_commands k ->
  process_event fuel k code pressed time = Ok (k', t') ->
  commands (k_out k') = commands (k_out k).
Proof.
  intros fuel k code pressed time k' t' [Hp Hs] Hu Hc Hn H. destruct fuel; [discriminate|].
  apply process_event_open in H as [k1 [E H]]; [|split; [auto|tauto]|left; exact Hp].
  unfold calculate_main_loop_timeout in H. apply pair_equal_spec in H as [-> _].
  apply rest_cmds in E; [|exact Hn]. destruct E as [E|[-> [E _]]]; [exact E|]. destruct Hc; congruence.
Qed.
(* A configuration without command bindings never runs a command, whatever happens
   (including chords, pending decisions and live bindings of that kind). *)
Theorem C29_none :
  forall (G : config -> Prop) c k, (forall c, G c -> cfg_all cmd_free c) -> reach G c k -> commands (k_out k) = [].
Proof. exact reach_no_commands. Qed.

(* ---- Examples -------------------------------------------------------------------- *)
Definition exm_cfg : config := cfg_of (bs "[main]
a = overloadi(x, y, 100)
m = macro(h i)
c = command(ls)
").
(* s pressed at 10: overloadi at 50 chooses x (45), at 200 chooses y (21) *)
Example C18_example :
  exists k k' t k2 k3 t3, reach anyc exm_cfg k /\ ready k 30 50 /\ resolves k 30 (DOverloadI 1 0 100) 0
    /\ chosen k 1 0 100 50 (DKey 45 0)
    /\ process_event 20 k 30 true 50%Z = Ok (k', t) /\ host_down (k_out k') 45 = true
    /\ reach anyc exm_cfg k2 /\ ready k2 30 200 /\ chosen k2 1 0 100 200 (DKey 21 0)
    /\ process_event 20 k2 30 true 200%Z = Ok (k3, t3) /\ host_down (k_out k3) 21 = true.
Proof.
  destruct (press_ex exm_cfg [[D 31 10; U 31 20]] 30 50 (DOverloadI 1 0 100) 0
    (fun k k' t => (50 - k_last_simple k <? 100)%Z
       && (if desc_eq_dec (nth 1 (c_descs (k_cfg k)) DNone) (DKey 45 0) then true else false) && host_down (k_out k') 45))
    as [k [k' [t [_ [H1 [H2 [H3 [H4 H5]]]]]]]]; [vm_compute; reflexivity|].
  destruct (press_ex exm_cfg [[D 31 10; U 31 20]] 30 200 (DOverloadI 1 0 100) 0
    (fun k k' t => (100 <=? 200 - k_last_simple k)%Z
       && (if desc_eq_dec (nth 0 (c_descs (k_cfg k)) DNone) (DKey 21 0) then true else false) && host_down (k_out k') 21))
    as [k2 [k3 [t3 [_ [J1 [J2 [J3 [J4 J5]]]]]]]]; [vm_compute; reflexivity|].
  exists k, k', t, k2, k3, t3. rewrite !andb_true_iff in H5, J5. destruct H5 as [[A1 A2] A3], J5 as [[B1 B2] B3].
  repeat (split; [assumption|]). split.
  { split; [intros; lia|intros _]. destruct (desc_eq_dec (nth 1 _ _) _); [congruence|discriminate A2]. }
  repeat (split; [assumption|]). split.
  { split; [intros _|intros; lia]. destruct (desc_eq_dec (nth 0 _ _) _); [congruence|discriminate B2]. }
  split; assumption.
Qed.
(* the macro key pressed at 10 types once, its first repetition is due at 610; the
   tick at 610 types again and sets 660; a key event stops it *)
Example C28_example :
  exists k k' t, reach anyc exm_cfg k /\ ready k 50 10 /\ resolves k 50 (DMacro 0) 0
    /\ process_event 20 k 50 true 10%Z = Ok (k', t) /\ k_amacro k' = Some 0%nat /\ k_macro_to k' = 610%Z
    /\ k_out k' = [OKey 23 false; OKey 23 true; OKey 35 false; OKey 35 true].
Proof.
  destruct (press_ex exm_cfg [] 50 10 (DMacro 0) 0
    (fun k k' t => match k_amacro k' with Some O => true | _ => false end && (k_macro_to k' =? 610)%Z
       && outb (k_out k') [OKey 23 false; OKey 23 true; OKey 35 false; OKey 35 true]))
    as [k [k' [t [_ [H1 [H2 [H3 [H4 H5]]]]]]]]; [vm_compute; reflexivity|].
  exists k, k', t. rewrite !andb_true_iff in H5. destruct H5 as [[A1 A2] A3].
  repeat (split; [assumption|]). split; [destruct (k_amacro k') as [[|]|]; congruence|].
  split; [lia|]. now apply outb_ok.
Qed.
Example C28_tick_example :
  exists k k' t k3 t3, reach anyc exm_cfg k /\ idle k /\ k_oneshot_to k = 0%Z /\ k_macro_to k = 610%Z
    /\ k_amacro k = Some 0%nat /\ process_event 20 k 0 false 610%Z = Ok (k', t) /\ k_macro_to k' = 660%Z
    /\ commands (k_out k') = [] /\ length (k_out k') = 8%nat
    /\ process_event 20 k 50 false 300%Z = Ok (k3, t3) /\ k_amacro k3 = None.
Proof.
  destruct (event_ex exm_cfg [[D 50 10]] 0 false 610 (fun k k' t => (k_oneshot_to k =? 0)%Z && (k_macro_to k =? 610)%Z
      && match k_amacro k with Some O => true | _ => false end && (k_macro_to k' =? 660)%Z
      && match commands (k_out k') with [] => true | _ => false end && Nat.eqb (length (k_out k')) 8
      && okb (process_event 20 k 50 false 300%Z) (fun '(k3, _) => match k_amacro k3 with None => true | _ => false end)))
    as [k [k' [t [_ [H1 [H2 [H3 [H4 H5]]]]]]]]; [vm_compute; reflexivity|].
  rewrite !andb_true_iff in H5. destruct H5 as [[[[[[A1 A2] A3] A4] A5] A6] A7].
  apply okb_ok in A7 as [[k3 t3] [A7 A8]]. exists k, k', t, k3, t3.
  split; [assumption|]. split; [assumption|]. split; [lia|]. split; [lia|].
  split; [destruct (k_amacro k) as [[|]|]; congruence|]. split; [assumption|]. split; [lia|].
  split; [destruct (commands (k_out k')); [reflexivity|discriminate A5]|].
  split; [now apply Nat.eqb_eq|]. split; [assumption|]. destruct (k_amacro k3); [discriminate A8|reflexivity].
Qed.
Example C29_example :
  exists k k' t, reach anyc exm_cfg k /\ ready k 46 10 /\ resolves k 46 (DCommand 0) 0 /\ no_nested_commands k
    /\ process_event 20 k 46 true 10%Z = Ok (k', t) /\ commands (k_out k') = [bs "ls"].
Proof.
  destruct (press_ex exm_cfg [[D 30 5]] 46 10 (DCommand 0) 0
    (fun k k' t => forallb (fun d => match d with DCommand _ => false | _ => true end) (c_descs (k_cfg k))
       && (if list_eq_dec (list_eq_dec N.eq_dec) (commands (k_out k')) [[108; 115]] then true else false)))
    as [k [k' [t [_ [H1 [H2 [H3 [H4 H5]]]]]]]]; [vm_compute; reflexivity|].
  exists k, k', t. rewrite !andb_true_iff in H5. destruct H5 as [A1 A2].
  repeat (split; [assumption|]). split.
  { intros d Hd x ->. rewrite forallb_forall in A1. specialize (A1 _ Hd). discriminate A1. }
  split; [assumption|]. change (bs "ls") with [108; 115].
  destruct (list_eq_dec _ _ _); [assumption|discriminate A2].
Qed.
Definition C18_all := (C18_choice, C18_key, C18_release, C18_clock, C28_press, C28_not_early, C28_repeats, C28_stops,
  C29_press, C29_press_other, C29_others, C29_none).
Print Assumptions C18_all.
