(* C14: overload(layer, action): tap versus hold. *)
From Coq Require Import String.
From Verif Require Import Base Lib Keys Types MacroExec Kbd Config Steps Hist SpecHist SpecLookup SpecActions SpecMods SpecPlain
  SpecWf Wf SpecKept SpecOverload ModsProofs LookupProofs Engine ActProofs StepProofs OneProofs CacheProofs Inv ClassInv
  ParseWf WfHist KeptProofs SpecDefer DeferProofs OverloadProofs PropKept ExTools PropTerm SpecTerm PropDefer.
Local Open Scope nat_scope.
Local Open Scope list_scope.
Local Notation length := List.length.

Definition after (k : kbd) (time : Z) : kbd := set_k_timeouts (filter (fun x => (time <? x)%Z) (k_timeouts k)) k.

(* The press adds one activation of the layer and does nothing else. *)
Theorem C14_press : forall (G : config -> Prop) c fuel k x s l a dl k1 t1,
  reach G c k -> ready k x s -> resolves k x (DOverload l a) dl ->
  process_event fuel k x true s = Ok (k1, t1) ->
  exists k', only_layer k k' l true /\ k1 = after k' s /\ holding k1 x.
Proof.
  intros G c fuel k x s l a dl k1 t1 Hr Hy Hres H.
  destruct (press_do _ _ _ _ _ _ _ _ (proj2 (reach_times _ _ _ Hr)) Hy Hres H) as [k0 [k' [[q [i [-> [Hi _]]]] [E ->]]]].
  apply overload_press in E as [O _].
  exists k'. split; [exact O|]. split; [reflexivity|].
  pose proof (press_remembers _ _ _ _ _ _ _ _ _ _ Hr Hy Hres Logic.I H) as [_ [ll [R1 _]]].
  exact (in_map ce_code _ _ R1).
Qed.

Lemma press_state (G : config -> Prop) c fuel k x s l a dl k1 t1 :
  (forall c, G c -> swap_free c) -> reach G c k -> ready k x s -> resolves k x (DOverload l a) dl ->
  process_event fuel k x true s = Ok (k1, t1) ->
  exists ll, kept False x (DOverload l a) dl ll k1 /\ decided k1 x /\ quiet x s k1
    /\ calm_since x s (map ce_code (k_cache k1)) k1.
Proof.
  intros HG Hr Hy Hres H.
  pose proof (press_remembers _ _ _ _ _ _ _ _ _ _ Hr Hy Hres Logic.I H) as [D1 [ll [R1 _]]].
  assert (Hr1 : reach G c k1) by (eapply reach_events; [exact Hr|apply one_event, H]).
  pose proof (reach_uniq _ _ _ Hr1) as [U1 A1].
  exists ll.
  assert (K : kept False x (DOverload l a) dl ll k1).
  { split; [|split; [exact R1|apply D1]]. split; [exact U1|split; [exact A1|]]. right.
    eapply reach_alld; [apply nonswap_closed| |exact Hr1]. intros c0 Hc0. apply swap_free_all. auto. }
  destruct (press_do _ _ _ _ _ _ _ _ (proj2 (reach_times _ _ _ Hr)) Hy Hres H) as [k0 [k' [[q [i [-> [Hi [_ Hq]]]]] [E ->]]]].
  apply overload_press in E as [O [E1 [E2 [E3 [E4 E5]]]]].
  destruct Hy as [_ [[Y1 Y2] _]]. destruct O as [_ [_ [_ [_ [_ [_ [O _]]]]]]].
  split; [exact K|]. split; [exact D1|]. split.
  - split; [split; [exact E1|exact E2]|]. cbn [k_pend k_chord k_achords set_k_timeouts]. rewrite O, E4.
    cbn [k_pend k_chord set_k_cache set_k_chord]. rewrite Hq. auto.
  - intros _. split; [exact E2|auto].
Qed.

(* No key was pressed since: the release ends the activation, and if the key was not held
   too long the action is pressed and released. *)
Theorem C14_alone : forall (G : config -> Prop) c fuel k x s l a dl k1 t1 k2 fuel2 time k3 t3,
  (forall c, G c -> swap_free c) ->
  reach G c k -> ready k x s -> resolves k x (DOverload l a) dl ->
  process_event fuel k x true s = Ok (k1, t1) -> undisturbed G x k1 k2 ->
  unchorded k2 x -> nothing_due k2 time -> process_event fuel2 k2 x false time = Ok (k3, t3) ->
  exists kd k', only_layer k2 kd l false /\ k3 = after k' time
    /\ (short (k_cfg k2) s time -> performed kd x (nth a (c_descs (k_cfg k2)) DNone) dl time k')
    /\ (~ short (k_cfg k2) s time -> k' = kd).
Proof.
  intros G c fuel k x s l a dl k1 t1 k2 fuel2 time k3 t3 HG Hr Hy Hres H M Hu Hd H2.
  destruct (press_state _ _ _ _ _ _ _ _ _ _ _ HG Hr Hy Hres H) as [ll [_ [_ [Q _]]]].
  assert (P : physical x) by apply Hy.
  pose proof (quiet_undisturbed x DNone 0 0 s [] P G k1 k2 M Q) as [[Q1 Q2] [_ [Q3 _]]].
  destruct (release_after G c fuel k x s (DOverload l a) dl k1 t1 k2 fuel2 time k3 t3 Hr Hy Hres Logic.I (or_intror HG) H
              (undisturbed_meanwhile _ _ _ _ M) Q3 Hu Hd H2) as [q [ca [k' [E1 E2]]]].
  apply overload_release in E1 as [kd [O [L1 [L2 [_ [T1 T2]]]]]].
  exists kd, k'. split; [exact O|]. split; [exact E2|].
  cbn [k_last_code k_ovl_start k_cfg set_k_cache set_k_chord] in T1, T2. rewrite Q2 in T1, T2. split; auto.
Qed.

(* Some other key has come down in between, at any moment: the release only ends the
   activation. *)
Theorem C14_other : forall (G : config -> Prop) c fuel k x s l a dl k1 t1 ka y k2 fuel2 time k3 t3,
  (forall c, G c -> swap_free c) ->
  reach G c k -> ready k x s -> resolves k x (DOverload l a) dl ->
  process_event fuel k x true s = Ok (k1, t1) ->
  meanwhile G x k1 ka -> y <> 0%N -> ~ holding k1 y -> holding ka y -> meanwhile G x ka k2 ->
  h_state (k_chord k2) = CsInactive -> unchorded k2 x -> nothing_due k2 time ->
  process_event fuel2 k2 x false time = Ok (k3, t3) ->
  exists kd, only_layer k2 kd l false /\ k3 = after kd time.
Proof.
  intros G c fuel k x s l a dl k1 t1 ka y k2 fuel2 time k3 t3 HG Hr Hy Hres H M1 Hy0 Hn Hh M2 Hs Hu Hd H2.
  destruct (press_state _ _ _ _ _ _ _ _ _ _ _ HG Hr Hy Hres H) as [ll [K [D [_ C]]]].
  assert (P : physical x) by apply Hy.
  destruct (between_meanwhile x _ dl ll s _ P G k1 ka HG M1 (conj K C) D) as [[Ka Ca] Da].
  assert (Na : k_last_code ka <> x). { intros E. apply Ca in E as [_ E]. apply Hn. now apply E. }
  assert (C2 : calm_since x (s + 1) [] ka) by (intros E; now elim Na).
  assert (C3 : calm_since x s [] ka) by (intros E; now elim Na).
  destruct (between_meanwhile x _ dl ll _ _ P G ka k2 HG M2 (conj Ka C2) Da) as [[_ C4] D2].
  destruct (between_meanwhile x _ dl ll _ _ P G ka k2 HG M2 (conj Ka C3) Da) as [[_ C5] _].
  assert (N2 : k_last_code k2 <> x).
  { intros E. destruct (C4 E) as [E1 _]. destruct (C5 E) as [E2 _]. lia. }
  assert (M : meanwhile G x k1 k2).
  { clear -M1 M2. induction M1; auto.
    - eapply mw_events; eauto.
    - eapply mw_eval; eauto. }
  destruct (release_after G c fuel k x s (DOverload l a) dl k1 t1 k2 fuel2 time k3 t3 Hr Hy Hres Logic.I (or_intror HG) H
              M Hs Hu Hd H2) as [q [ca [k' [E1 E2]]]].
  apply overload_release in E1 as [kd [O [L1 [L2 [_ [T1 _]]]]]].
  rewrite (T1 (or_introl N2)) in E2. exists kd. split; [exact O|exact E2].
Qed.

(* a key pressed while nothing is undecided is taken notice of *)
Theorem C14_noticed : forall (G : config -> Prop) c fuel k y time d dl k' t,
  reach G c k -> ready k y time -> resolves k y d dl ->
  process_event fuel k y true time = Ok (k', t) -> holding k' y.
Proof.
  intros G c fuel k y time d dl k' t Hr Hy Hres H.
  destruct (press_do _ _ _ _ _ _ _ _ (proj2 (reach_times _ _ _ Hr)) Hy Hres H) as [k0 [k1 [[q [i [E0 [Hi [Hz _]]]]] [E ->]]]].
  pose proof (reach_uniq _ _ _ Hr) as [U _].
  assert (U0 : uniq (k_cache k0)).
  { subst k0. cbn [k_cache set_k_cache]. apply uniq_upd; auto. right. right. cbn [ce_code].
    intros e He. destruct Hy as [_ [_ [_ [_ [Hh _]]]]]. now apply Hh. }
  assert (V : evols True y k0 k1) by (eapply (pd_evols True); [exact E|exact U0|now left]).
  apply evols_codes in V. unfold holding. cbn [k_cache set_k_timeouts]. rewrite V. subst k0. cbn [k_cache set_k_cache].
  apply (in_map ce_code _ (mkCe y d dl 0)).
  pose proof (nth_In (upd i (mkCe y d dl 0) (k_cache k)) zero_ce (n := i)) as X. rewrite upd_length in X.
  specialize (X Hi). rewrite nth_upd_same in X by exact Hi. exact X.
Qed.

(* ---- examples ------------------------------------------------------------------------ *)
Definition ex14_text : str := bs "[global]
overload_tap_timeout = 200
[main]
a = overload(nav, x)
[nav]
b = left
".
Definition ex14 : config := cfg_of ex14_text.
Lemma ex14_free : swap_free ex14.
Proof. apply swap_free_check; vm_compute; reflexivity. Qed.
Definition ex14_tap : list oev :=
  [OKey 50 true; OLayer 6 true true; OKey 50 false; OLayer 6 false false; OKey 45 true; OKey 45 false]%N.
Definition ex14_held : list oev := [OKey 50 true; OLayer 6 true true; OKey 50 false; OLayer 6 false false]%N.
(* m is held; a is pressed, m released, a released: x is tapped; held too long: nothing *)
Definition ex14_ok (k : kbd) : bool :=
  readyb k 30 10 && looksb k 30 (DOverload 6 0) 0
  && okb (process_event 20 k 30%N true 10%Z) (fun '(k1, _) =>
       okb (kbd_process_events 20 k1 [U 50 60]%N) (fun '(k2, _) =>
         unchordedb k2 30 && quietb k2 100 && quietb k2 400
         && okb (process_event 20 k2 30%N false 100%Z) (fun '(k3, _) => outb ex14_tap k3)
         && okb (process_event 20 k2 30%N false 400%Z) (fun '(k3, _) => outb ex14_held k3))).
Example C14_alone_example : config_parse ex14_text = Ok (Some ex14) /\ exists k k1 r1 k2 k3 r3 k4 r4,
  reach swap_free ex14 k /\ ready k 30%N 10 /\ resolves k 30%N (DOverload 6 0) 0
  /\ process_event 20 k 30%N true 10%Z = Ok (k1, r1) /\ undisturbed swap_free 30%N k1 k2
  /\ unchorded k2 30%N /\ nothing_due k2 100 /\ nothing_due k2 400
  /\ process_event 20 k2 30%N false 100%Z = Ok (k3, r3) /\ rev (k_out k3) = ex14_tap
  /\ process_event 20 k2 30%N false 400%Z = Ok (k4, r4) /\ rev (k_out k4) = ex14_held.
Proof.
  split; [apply parsesb_ok; vm_compute; reflexivity|].
  destruct (check_run_ok ex14 [[D 50 0%Z]]%N ex14_ok) as [k [Hr H]]; [vm_compute; reflexivity|].
  pose proof (run_to_reach _ _ _ ex14_free Hr) as R. unfold ex14_ok in H. rewrite !andb_true_iff in H.
  destruct H as [[H1 H2] H]. apply okb_ok in H as [[k1 r1] [H3 H]]. apply okb_ok in H as [[k2 r2] [H4 H]].
  rewrite !andb_true_iff in H. destruct H as [[[[H5 H6] H7] H8] H9].
  apply okb_ok in H8 as [[k3 r3] [H8 H8b]]. apply okb_ok in H9 as [[k4 r4] [H9 H9b]].
  exists k, k1, r1, k2, k3, r3, k4, r4.
  split; [exact R|]. split; [now apply readyb_ok|]. split; [exact (looksb_ok _ _ _ _ _ _ R H2)|]. split; [exact H3|].
  split; [eapply ud_events; [|exact H4|apply ud_refl]; repeat constructor; discriminate|].
  split; [now apply unchordedb_ok|]. split; [now apply quietb_ok|]. split; [now apply quietb_ok|].
  split; [exact H8|]. split; [now apply outb_ok|]. split; [exact H9|now apply outb_ok].
Qed.

(* b struck and released while a is held *)
Definition ex14_other : list oev :=
  [OLayer 6 true true; OKey 105 true; OKey 105 false; OLayer 6 false false]%N.
Definition holdingb (k : kbd) (c : N) : bool := existsb (fun e => (ce_code e =? c)%N) (k_cache k).
Lemma holdingb_ok k c : holdingb k c = true -> holding k c.
Proof.
  unfold holdingb, holding. intros H. apply existsb_exists in H as [e [H1 H2]]. apply N.eqb_eq in H2. subst c.
  now apply in_map.
Qed.
Lemma not_holdingb k c : holdingb k c = false -> ~ holding k c.
Proof.
  unfold holdingb, holding. intros H X. apply in_map_iff in X as [e [E X]].
  assert (Y : existsb (fun e => (ce_code e =? c)%N) (k_cache k) = true).
  { apply existsb_exists. exists e. split; [exact X|]. now apply N.eqb_eq. }
  congruence.
Qed.
Definition ex14_other_ok (k : kbd) : bool :=
  readyb k 30 10 && looksb k 30 (DOverload 6 0) 0
  && okb (process_event 20 k 30%N true 10%Z) (fun '(k1, _) => negb (holdingb k1 48) &&
       okb (kbd_process_events 20 k1 [D 48 60]%N) (fun '(ka, _) => holdingb ka 48 &&
         okb (kbd_process_events 20 ka [U 48 80]%N) (fun '(k2, _) =>
         idleb k2 && unchordedb k2 30 && quietb k2 100
         && okb (process_event 20 k2 30%N false 100%Z) (fun '(k3, _) => outb ex14_other k3)))).
Example C14_other_example : exists k k1 r1 ka k2 k3 r3,
  reach swap_free ex14 k /\ ready k 30%N 10 /\ resolves k 30%N (DOverload 6 0) 0
  /\ process_event 20 k 30%N true 10%Z = Ok (k1, r1) /\ meanwhile swap_free 30%N k1 ka
  /\ ~ holding k1 48%N /\ holding ka 48%N /\ meanwhile swap_free 30%N ka k2
  /\ h_state (k_chord k2) = CsInactive /\ unchorded k2 30%N /\ nothing_due k2 100
  /\ process_event 20 k2 30%N false 100%Z = Ok (k3, r3) /\ rev (k_out k3) = ex14_other.
Proof.
  destruct (check_run_ok ex14 [] ex14_other_ok) as [k [Hr H]]; [vm_compute; reflexivity|].
  pose proof (run_to_reach _ _ _ ex14_free Hr) as R. unfold ex14_other_ok in H. rewrite !andb_true_iff in H.
  destruct H as [[H1 H2] H]. apply okb_ok in H as [[k1 r1] [H3 H]]. rewrite andb_true_iff, negb_true_iff in H.
  destruct H as [H4 H]. apply okb_ok in H as [[ka ra] [H5 H]]. rewrite andb_true_iff in H. destruct H as [H6 H].
  apply okb_ok in H as [[k2 r2] [H7 H]].
  rewrite !andb_true_iff in H. destruct H as [[[H8 H9] H10] H].
  apply okb_ok in H as [[k3 r3] [H11 H12]]. apply idleb_ok in H8 as [_ H8].
  exists k, k1, r1, ka, k2, k3, r3.
  split; [exact R|]. split; [now apply readyb_ok|]. split; [exact (looksb_ok _ _ _ _ _ _ R H2)|]. split; [exact H3|].
  split; [eapply mw_events; [|exact H5|apply mw_refl]; repeat constructor; discriminate|].
  split; [now apply not_holdingb|]. split; [now apply holdingb_ok|].
  split; [eapply mw_events; [|exact H7|apply mw_refl]; repeat constructor; discriminate|].
  split; [exact H8|]. split; [now apply unchordedb_ok|]. split; [now apply quietb_ok|].
  split; [exact H11|now apply outb_ok].
Qed.

(* With 16 keys down the next press goes unnoticed, and does not prevent the tap: 15 keys,
   then a, b pressed, a released. *)
Definition ex14_full : list kev := map (fun c => D c 0) [2;3;4;5;6;7;8;9;10;11;12;13;14;15;16]%N.
Theorem C14_unnoticed_refuted : exists text c k kf,
  config_parse text = Ok (Some c) /\ run_to c k /\ ready k 30%N 10 /\ resolves k 30%N (DOverload 6 0) 0
  /\ outcome k [D 30 10; D 48 20; U 30 50]%N (Ok (kf, 0%Z))
  /\ since k kf [OKey 45 false; OKey 45 true; OLayer 6 false false; OLayer 6 true true]%N.
Proof.
  exists ex14_text, ex14.
  assert (G : exists k, run_to ex14 k /\ readyb k 30 10 && looksb k 30 (DOverload 6 0) 0
     && runsb k [D 30 10; D 48 20; U 30 50]%N
          (rev (k_out k) ++ [OLayer 6 true true; OLayer 6 false false; OKey 45 true; OKey 45 false]%N) 0 = true).
  { apply (check_run_ok ex14 [ex14_full]). vm_compute. reflexivity. }
  destruct G as [k [Hr H]]. rewrite !andb_true_iff in H. destruct H as [[H1 H2] H3].
  apply runsb_ok in H3 as [kf [H3 H4]]. exists k, kf.
  split; [apply parsesb_ok; vm_compute; reflexivity|]. split; [exact Hr|]. split; [now apply readyb_ok|].
  split; [exact (looksb_ok _ _ _ _ _ _ (run_to_reach _ _ _ ex14_free Hr) H2)|]. split; [exact H3|].
  unfold since. apply (f_equal (@rev oev)) in H4. rewrite rev_involutive, rev_app_distr, rev_involutive in H4. exact H4.
Qed.

Definition C14_all := (C14_press, C14_alone, C14_other, C14_noticed, C14_unnoticed_refuted).
Print Assumptions C14_all.
