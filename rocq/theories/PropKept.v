(* C07: a release is handled with the binding chosen at the press. *)
From Coq Require Import String.
From Verif Require Import Base Lib Keys Types MacroExec Kbd Config Steps Hist SpecTrace SpecMods SpecLookup
  SpecHist SpecActions SpecKept TraceProofs ModsProofs LookupProofs Engine SpecWf Wf WfHist ActProofs StepProofs
  OneProofs CacheProofs Inv ClassInv KeptProofs.
Local Open Scope list_scope.
Local Open Scope N_scope.
Local Notation length := List.length.

Lemma release_after (G : config -> Prop) c fuel k code time d dl k1 t1 k2 fuel2 time2 k3 t3 :
  reach G c k -> ready k code time -> resolves k code d dl -> fixed_at_press d ->
  holds_no_layer d \/ (forall c, G c -> swap_free c) ->
  process_event fuel k code true time = Ok (k1, t1) ->
  meanwhile G code k1 k2 ->
  h_state (k_chord k2) = CsInactive -> unchorded k2 code -> nothing_due k2 time2 ->
  process_event fuel2 k2 code false time2 = Ok (k3, t3) ->
  exists q ca k', do_desc (set_k_cache ca (set_k_chord q k2)) code d dl false time2 = Ok k'
    /\ k3 = set_k_timeouts (filter (fun x => (time2 <? x)%Z) (k_timeouts k')) k'.
Proof.
  intros Hr Hy Hres Hf Hcl H M Hs Hu Hd H2.
  pose proof (press_remembers _ _ _ _ _ _ _ _ _ _ Hr Hy Hres Hf H) as [D1 [l [R1 L1]]].
  assert (Hr1 : reach G c k1) by (eapply reach_events; [exact Hr|apply one_event, H]).
  pose proof (reach_uniq _ _ _ Hr1) as [U1 A1].
  assert (P : physical code) by apply Hy.
  assert (K : exists sw, (~ sw \/ l = 0%nat) /\ (sw \/ forall c, G c -> swap_free c)
              /\ kept sw code d dl l k1).
  { destruct Hcl as [Hn|Hsf].
    - exists True. split; [auto|]. split; [auto|]. split; [repeat split; auto|]. split; [exact R1|apply D1].
    - exists False. split; [auto|]. split; [auto|]. split; [|split; [exact R1|apply D1]].
      split; [exact U1|split; [exact A1|]]. right. eapply reach_alld; [apply nonswap_closed| |exact Hr1].
      intros c0 Hc0. apply swap_free_all. auto. }
  destruct K as [sw [K1 [K2 K3]]].
  destruct (meanwhile_kept sw code d dl l (proj1 P) K1 G k1 k2 P K2 M K3 D1) as [K4 D2].
  destruct K4 as [[U2 _] [R2 _]].
  destruct (release_decided _ _ _ _ _ _ _ _ _ U2 (proj1 P) R2 D2 Hs Hu Hd H2) as [q [ca [k' [_ [E1 E2]]]]].
  eauto.
Qed.

(* The release performs the release part of the very action d of layer dl that
   was resolved at the press, whatever other keys, timers and live rebinds did
   in between.  Excepted are the bindings decided later (overloadt, overloadt2,
   timeout, overloadi: C15-C18) and, where swap(...) is configured, the keys
   holding a layer, which is what swap replaces (C07_swap_refuted). *)
Theorem C07_release_uses_binding_of_press :
  forall (G : config -> Prop) c fuel k code time d dl k1 t1 k2 fuel2 time2 k3 t3,
  reach G c k -> ready k code time -> resolves k code d dl -> fixed_at_press d ->
  holds_no_layer d \/ (forall c, G c -> swap_free c) ->
  process_event fuel k code true time = Ok (k1, t1) ->
  meanwhile G code k1 k2 ->
  h_state (k_chord k2) = CsInactive -> unchorded k2 code -> nothing_due k2 time2 ->
  process_event fuel2 k2 code false time2 = Ok (k3, t3) ->
  exists q ca k', do_desc (set_k_cache ca (set_k_chord q k2)) code d dl false time2 = Ok k'
    /\ k3 = set_k_timeouts (filter (fun x => (time2 <? x)%Z) (k_timeouts k')) k'.
Proof. exact release_after. Qed.

(* For a key sequence: the output key pressed at the press is released, as the
   first thing, if it is still down.  (Macros may press and release keys behind
   the engine's back, hence macros_avoid: see C01.) *)
Theorem C07_same_key_released :
  forall c fuel k code time o m dl k1 t1 k2 fuel2 time2 k3 t3,
  reach (macros_avoid o) c k -> ready k code time -> resolves k code (DKey o m) dl ->
  process_event fuel k code true time = Ok (k1, t1) ->
  meanwhile (macros_avoid o) code k1 k2 ->
  h_state (k_chord k2) = CsInactive -> unchorded k2 code -> nothing_due k2 time2 ->
  o <> K_NOOP -> o <> K_EXTERNAL_MOUSE -> host_down (k_out k2) o = true ->
  process_event fuel2 k2 code false time2 = Ok (k3, t3) ->
  exists later, since k2 k3 (later ++ [OKey o false]).
Proof.
  intros c fuel k code time o m dl k1 t1 k2 fuel2 time2 k3 t3 Hr Hy Hres H M Hs Hu Hd N1 N2 Hdn H2.
  assert (Hr2 : reach (macros_avoid o) c k2).
  { assert (Hr1 : reach (macros_avoid o) c k1) by (eapply reach_events; [exact Hr|apply one_event, H]).
    clear -M Hr1. induction M; eauto using reach_events, reach_eval. }
  pose proof (reach_agrees _ _ _ o (fun c H => H) Hr2) as Ha.
  destruct (release_after _ _ _ _ _ _ _ _ _ _ _ _ _ _ _ Hr Hy Hres Logic.I (or_introl Logic.I) H M Hs Hu Hd H2)
    as [q [ca [k' [E ->]]]].
  apply pd_unfold in E as [ka [kb [E1 [-> E2]]]]. cbn [pre_macro] in E1. apply Ok_inj in E1. subst ka.
  unfold pd_key in E2. cbn [bind] in E2. apply Ok_inj in E2. subst kb.
  set (ka := set_k_cache ca (set_k_chord q k2)) in *.
  assert (Es : send_key ka o false = emit (OKey o false) (set_k_ks (fupd (k_ks ka) o false) ka)).
  { unfold send_key. replace ((o =? K_NOOP) || (o =? K_EXTERNAL_MOUSE)) with false by lia.
    unfold agrees in Ha. rewrite Hdn in Ha. change (k_ks ka o) with (k_ks k2 o). now rewrite <- Ha. }
  rewrite Es.
  destruct (update_mods_grow false (emit (OKey o false) (set_k_ks (fupd (k_ks ka) o false) ka)) None 0)
    as [l [s [os [-> _]]]].
  exists os. unfold since.
  match goal with |- k_out (set_k_timeouts _ (if ?b then _ else _)) = _ => destruct b end;
  cbn [k_out set_k_timeouts set_k_last_simple kk set_k_out emit set_k_ks]; rewrite <- app_assoc; reflexivity.
Qed.

(* For a layer held by the key: exactly its activation is withdrawn. *)
Theorem C07_same_layer_released :
  forall (G : config -> Prop) c fuel k code time d l dl k1 t1 k2 fuel2 time2 k3 t3,
  d = DLayer l \/ (exists m, d = DLayerM l m) ->
  (forall c, G c -> swap_free c) ->
  reach G c k -> ready k code time -> resolves k code d dl ->
  process_event fuel k code true time = Ok (k1, t1) ->
  meanwhile G code k1 k2 ->
  h_state (k_chord k2) = CsInactive -> unchorded k2 code -> nothing_due k2 time2 ->
  process_event fuel2 k2 code false time2 = Ok (k3, t3) ->
  count k2 l <> 0 /\ count k3 l = count k2 l - 1
  /\ forall i, i <> l -> count k3 i = count k2 i.
Proof.
  intros G c fuel k code time d l dl k1 t1 k2 fuel2 time2 k3 t3 Hd0 HG Hr Hy Hres H M Hs Hu Hd H2.
  assert (Hf : fixed_at_press d) by (destruct Hd0 as [->|[m ->]]; exact Logic.I).
  destruct (release_after _ _ _ _ _ _ _ _ _ _ _ _ _ _ _ Hr Hy Hres Hf (or_intror HG) H M Hs Hu Hd H2)
    as [q [ca [k' [E ->]]]].
  apply pd_unfold in E as [ka [kb [E1 [-> E2]]]]. apply Ok_inj in E1. subst ka.
  assert (E3 : pd_layer (set_k_cache ca (set_k_chord q k2)) code l false = Ok kb)
    by (destruct Hd0 as [->|[m ->]]; exact E2).
  unfold pd_layer in E3. bstep E3 k4 E4. apply Ok_inj in E3. subst kb.
  destruct (update_mods_only (k_last_code k4 =? code) k4 None 0) as [x [y [z ->]]].
  unfold count. cbn [k_ls set_k_timeouts kk set_k_out set_k_ks set_k_last_out].
  unfold deactivate_layer in E4. bstep E4 u Eu. cbn [k_ls set_k_cache set_k_chord] in E4.
  destruct (N.eqb_spec (l_active (k_ls k2 l)) 0) as [|Hn]; [discriminate E4|]. apply Ok_inj in E4. subst k4.
  cbn [k_ls emit set_k_out set_lsi set_k_ls].
  split; [exact Hn|]. split.
  - now rewrite nupd_same.
  - intros i Hi. now rewrite nupd_other.
Qed.

Definition C07_all :=
  (C07_release_uses_binding_of_press, C07_same_key_released, C07_same_layer_released).
Print Assumptions C07_all.

(* ---- examples ------------------------------------------------------------------------ *)
(* one press, other events, one release, checked by computation *)
Definition press_meanwhile_release (k : kbd) (code : N) (t1 : Z) (evs : list kev) (t2 : Z)
  (f : kbd -> kbd -> bool) : bool :=
  okb (process_event 20 k code true t1) (fun '(k1, _) =>
    forallb (fun e => negb (ev_code e =? code)) evs
    && okb (kbd_process_events 200 k1 evs) (fun '(k2, _) =>
         okb (process_event 20 k2 code false t2) (fun '(k3, _) => f k2 k3))).
Lemma press_meanwhile_release_ok (G : config -> Prop) k code t1 evs t2 f :
  press_meanwhile_release k code t1 evs t2 f = true ->
  exists k1 r1 k2 k3 r3, process_event 20 k code true t1 = Ok (k1, r1)
    /\ meanwhile G code k1 k2 /\ process_event 20 k2 code false t2 = Ok (k3, r3) /\ f k2 k3 = true.
Proof.
  unfold press_meanwhile_release. intros H. apply okb_ok in H as [[k1 r1] [H1 H]].
  apply andb_true_iff in H as [H0 H]. apply okb_ok in H as [[k2 r2] [H2 H]]. apply okb_ok in H as [[k3 r3] [H3 H]].
  exists k1, r1, k2, k3, r3. repeat split; auto.
  eapply mw_events; [|exact H2|apply mw_refl].
  apply Forall_forall. intros e He. rewrite forallb_forall in H0. specialize (H0 e He).
  apply negb_true_iff, N.eqb_neq in H0. exact H0.
Qed.

Definition ex7_cfg : config := cfg_of (bs "[main]
q = layer(one)
r = setlayout(two)
[one]
a = 1
e = swap(three)
[two:layout]
a = 2
[three]
").
Lemma ex7_avoid : macros_avoid 2 ex7_cfg.
Proof. intros m e Hm. vm_compute in Hm. destruct Hm. Qed.

(* a pressed in layer one gives 1; then the layer key is released, the layout
   changed (r), z tapped; the release of a releases 1 *)
Example C07_key_example :
  exists k k1 r1 k2 k3 r3, reach (macros_avoid 2) ex7_cfg k /\ ready k 30 10 /\ resolves k 30 (DKey 2 0) 6
    /\ process_event 20 k 30 true 10%Z = Ok (k1, r1) /\ meanwhile (macros_avoid 2) 30 k1 k2
    /\ h_state (k_chord k2) = CsInactive /\ unchorded k2 30 /\ nothing_due k2 90
    /\ host_down (k_out k2) 2 = true
    /\ process_event 20 k2 30 false 90%Z = Ok (k3, r3) /\ since k2 k3 [OKey 2 false].
Proof.
  destruct (check_run_ok ex7_cfg [[D 16 0]]
    (fun k => readyb k 30 10 && looksb k 30 (DKey 2 0) 6
       && press_meanwhile_release k 30 10 [U 16 20; D 44 40; U 44 50] 90
            (fun k2 k3 => idleb k2 && unchordedb k2 30 && quietb k2 90 && host_down (k_out k2) 2
               && outb (k_out k3) (OKey 2 false :: k_out k2)))) as [k [Hr Hk]].
  - vm_compute. reflexivity.
  - rewrite !andb_true_iff in Hk. destruct Hk as [[H1 H2] H3].
    apply (press_meanwhile_release_ok (macros_avoid 2)) in H3 as [k1 [r1 [k2 [k3 [r3 [A1 [A2 [A3 A4]]]]]]]].
    rewrite !andb_true_iff in A4. destruct A4 as [[[[B1 B2] B3] B4] B5]. apply outb_ok in B5.
    pose proof (run_to_reach _ _ _ ex7_avoid Hr) as Hr'.
    exists k, k1, r1, k2, k3, r3. apply idleb_ok in B1.
    repeat (split; [eauto using readyb_ok, looksb_ok, unchordedb_ok, quietb_ok; try apply B1|]). exact B5.
Qed.

(* the layer key q is released while z is held *)
Definition ex7b_text : str := bs "[main]
q = layer(one)
[one]
a = 1
".
Lemma ex7b_free : swap_free (cfg_of ex7b_text).
Proof. apply swap_free_check; vm_compute; reflexivity. Qed.
Example C07_layer_example :
  exists k k1 r1 k2 k3 r3, reach swap_free (cfg_of ex7b_text) k /\ ready k 16 10 /\ resolves k 16 (DLayer 6) 0
    /\ process_event 20 k 16 true 10%Z = Ok (k1, r1) /\ meanwhile swap_free 16 k1 k2
    /\ h_state (k_chord k2) = CsInactive /\ unchorded k2 16 /\ nothing_due k2 90
    /\ process_event 20 k2 16 false 90%Z = Ok (k3, r3) /\ count k2 6 = 1 /\ count k3 6 = 0.
Proof.
  destruct (check_run_ok (cfg_of ex7b_text) [[]]
    (fun k => readyb k 16 10 && looksb k 16 (DLayer 6) 0
       && press_meanwhile_release k 16 10 [D 30 20; U 30 30; D 44 40] 90
            (fun k2 k3 => idleb k2 && unchordedb k2 16 && quietb k2 90 && (count k2 6 =? 1) && (count k3 6 =? 0))))
    as [k [Hr Hk]].
  - vm_compute. reflexivity.
  - rewrite !andb_true_iff in Hk. destruct Hk as [[H1 H2] H3].
    apply (press_meanwhile_release_ok swap_free) in H3 as [k1 [r1 [k2 [k3 [r3 [A1 [A2 [A3 A4]]]]]]]].
    rewrite !andb_true_iff in A4. destruct A4 as [[[[B1 B2] B3] B4] B5].
    apply N.eqb_eq in B4. apply N.eqb_eq in B5.
    pose proof (run_to_reach _ _ _ ex7b_free Hr) as Hr'.
    exists k, k1, r1, k2, k3, r3. apply idleb_ok in B1.
    repeat (split; [eauto using readyb_ok, looksb_ok, unchordedb_ok, quietb_ok; try apply B1|]). exact B5.
Qed.

(* With swap the claim is false for layer keys, by design: q holds layer one; e
   swaps to layer three; the release of q ends layer three, and layer one had been
   left at the swap. *)
Theorem C07_swap_refuted :
  exists k k1 r1 k2 k3 r3, reach (fun _ => True) ex7_cfg k /\ ready k 16 10 /\ resolves k 16 (DLayer 6) 0
    /\ process_event 20 k 16 true 10%Z = Ok (k1, r1) /\ meanwhile (fun _ => True) 16 k1 k2
    /\ h_state (k_chord k2) = CsInactive /\ unchorded k2 16 /\ nothing_due k2 90
    /\ process_event 20 k2 16 false 90%Z = Ok (k3, r3)
    /\ count k2 6 = 0 /\ count k2 8 = 1 /\ count k3 8 = 0.
Proof.
  destruct (check_run_ok ex7_cfg [[]]
    (fun k => readyb k 16 10 && looksb k 16 (DLayer 6) 0
       && press_meanwhile_release k 16 10 [D 18 20; U 18 30; D 44 40] 90
            (fun k2 k3 => idleb k2 && unchordedb k2 16 && quietb k2 90 && (count k2 6 =? 0) && (count k2 8 =? 1)
               && (count k3 8 =? 0))))
    as [k [Hr Hk]].
  - vm_compute. reflexivity.
  - rewrite !andb_true_iff in Hk. destruct Hk as [[H1 H2] H3].
    apply (press_meanwhile_release_ok (fun _ => True)) in H3 as [k1 [r1 [k2 [k3 [r3 [A1 [A2 [A3 A4]]]]]]]].
    rewrite !andb_true_iff in A4. destruct A4 as [[[[[B1 B2] B3] B4] B5] B6].
    apply N.eqb_eq in B4. apply N.eqb_eq in B5. apply N.eqb_eq in B6.
    assert (Hr' : reach (fun _ => True) ex7_cfg k) by now apply run_to_reach.
    exists k, k1, r1, k2, k3, r3. apply idleb_ok in B1.
    repeat (split; [eauto using readyb_ok, looksb_ok, unchordedb_ok, quietb_ok; try apply B1|]). exact B6.
Qed.
