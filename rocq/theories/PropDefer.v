(* C15, C16, C17, C19: keys that are decided after their press (overloadt, overloadt2,
   timeout). *)
From Coq Require Import String.
From Verif Require Import Base Lib Keys Types MacroExec Kbd Config Steps Hist SpecHist SpecLookup SpecActions SpecWf
  Engine Wf WfEvents ParseWf WfHist ExTools ModsProofs LookupProofs TermProofs SpecTerm PropTerm ClassInv KeptProofs
  CacheProofs SpecDefer DeferProofs.
Local Open Scope nat_scope.
Local Open Scope list_scope.
Local Notation length := List.length.

(* ---- C19 ------------------------------------------------------------------------- *)
(* From the press of such a key to the last event before the matter is settled: the
   key is undecided, what was struck is kept in order, the keys released that had been
   down before were let go as if the undecided key had no effect yet, and a timer for
   the moment of decision is set. *)
Lemma press_run text c G k x s d dl w evs freed struck rest r :
  config_parse text = Ok (Some c) -> reach G c k ->
  ready k x s -> resolves k x d dl -> defers (k_cfg k) x dl s d w -> (0 <= s < w_due w)%Z ->
  Forall (apart k) evs -> suspense w [] evs freed struck ->
  outcome k (mkKev x true s :: evs ++ rest) (Ok r) ->
  exists kx k0 d0 due0, w_key w = x /\ w_from w = dl /\ noted k x d dl kx /\ let_go kx freed (aside k0)
    /\ sit k0 w struck /\ alarm k0 w d0 due0 /\ same_setup k k0 /\ driven k0 d0 due0 rest (Ok r).
Proof.
  intros Hp Hr Hrd Hres Hd Hs Ha Hsu H.
  pose proof (config_parse_inv _ _ Hp) as I0. destruct (reach_inv_cfg _ _ _ I0 Hr) as [[W Hm] _].
  apply C30_batch in H; [|exact W]. apply driven_first in H as [k1 [t1 [O1 D1]]].
  destruct (press_sit k x s d dl w k1 t1) as [Ew [El [S1 [A1 [N1 C1]]]]]; auto.
  - apply (reach_times G c). exact Hr.
  - apply (reach_uniq G c k Hr).
  - apply (reach_pqueue G c k Hr).
  - cbn [ev_time] in D1.
    destruct (driven_suspense w r [] evs freed struck Hsu rest k1 t1 (s + t1)%Z D1 S1 A1) as [k0 [d0 [due0 [R1 [R2 [R3 [R4 R5]]]]]]].
    { eapply Forall_impl; [|exact Ha]. intros y. now apply apart_setup. }
    exists (aside k1), k0, d0, due0. repeat (split; [assumption|]). split; [|exact R5].
    eapply same_setup_trans; eauto.
Qed.

Theorem C19_undecided : forall text c G k x s d dl w evs freed struck kf df,
  config_parse text = Ok (Some c) -> reach G c k ->
  ready k x s -> resolves k x d dl -> defers (k_cfg k) x dl s d w -> (0 <= s < w_due w)%Z ->
  Forall (apart k) evs -> suspense w [] evs freed struck ->
  outcome k (mkKev x true s :: evs) (Ok (kf, df)) ->
  undecided kf w struck
  /\ (exists kx, noted k x d dl kx /\ let_go kx freed (aside kf))
  /\ exists due, alarmed kf w df due.
Proof.
  intros text c G k x s d dl w evs freed struck kf df Hp Hr Hrd Hres Hd Hs Ha Hsu H.
  rewrite <- (app_nil_r evs) in H.
  destruct (press_run _ _ _ _ _ _ _ _ _ _ _ _ _ _ Hp Hr Hrd Hres Hd Hs Ha Hsu H)
    as [kx [k0 [d0 [due0 [_ [_ [N [L [S [A [_ D]]]]]]]]]]].
  inversion D; subst.
  split; [apply S|]. split; [eauto|]. exists due0. apply A.
Qed.

(* The event that settles the matter in time: the action is pressed at that moment, then
   everything struck is processed in the order of its arrival, that event last. *)
Theorem C19_decided : forall text c G k x s d dl w evs freed struck e a rest kf df,
  config_parse text = Ok (Some c) -> reach G c k ->
  ready k x s -> resolves k x d dl -> defers (k_cfg k) x dl s d w -> (0 <= s < w_due w)%Z ->
  Forall (apart k) (evs ++ [e]) -> suspense w [] evs freed struck ->
  (ev_time e < w_due w)%Z -> ~ bystander w struck e -> settles w struck e a ->
  outcome k (mkKev x true s :: evs ++ e :: rest) (Ok (kf, df)) ->
  exists k3 d3, settled k x d dl freed a (ev_time e) (struck ++ [e]) k3
    /\ driven k3 d3 (ev_time e + d3) rest (Ok (kf, df)).
Proof.
  intros text c G k x s d dl w evs freed struck e a rest kf df Hp Hr Hrd Hres Hd Hs Ha Hsu Ht Hb Hn H.
  apply Forall_app in Ha as [Ha He]. inversion He as [|? ? He1 _]; subst. clear He.
  destruct (press_run _ _ _ _ _ _ _ _ _ _ _ _ _ _ Hp Hr Hrd Hres Hd Hs Ha Hsu H)
    as [kx [k0 [d0 [due0 [Ew [El [N [L [S [A [C D]]]]]]]]]]].
  destruct (driven_ticks w struck e rest _ _ _ _ D S A) as [ka [da [duea [S1 [A1 [B1 [C1 [[_ [kb [db [O1 D1]]]]|[X _]]]]]]]]]; [|lia].
  pose proof (config_parse_inv _ _ Hp) as I0. destruct (reach_inv_cfg _ _ _ I0 Hr) as [I1 _].
  destruct (defers_some _ _ _ _ _ _ I1 Hres Hd) as [T1 T2].
  assert (Ea : a <> DNone) by (destruct Hn; assumption).
  assert (Ap : apart ka e) by exact (apart_setup k ka e (same_setup_trans k k0 ka C C1) He1).
  destruct (settle_outcome ka w struck e a kb db S1 Ap Hb Hn Ea O1) as [k5 [k6 [k7 [d7 [Q1 [Q2 [Q3 Q4]]]]]]].
  assert (E0 : ev_code e <> 0%N).
  { intros E0. assert (Hk : w_key w <> 0%N) by apply S. exact (code0_settles w struck e a Hk E0 Ht Hn). }
  exists kb, db. split; [|exact D1]. exists kx, k5, k6, k7, d7. split; [exact N|]. split.
  - assert (L2 : let_go kx freed k5); [|exact L2].
    assert (B : same_but_timers (aside k0) k5) by (eapply sbt_trans; eauto). clear -L B.
    remember (aside k0) as k9 eqn:E9. clear E9. induction L as [k k' H|k k1 e k2 t rest k' H1 H2 H3 IH].
    + constructor. eapply sbt_trans; eauto.
    + econstructor; eauto.
  - rewrite Ew, El in Q2. split; [exact Q2|]. split; [|exact Q4].
    unfold queued in Q3. apply N.eqb_neq in E0. rewrite E0 in Q3. exact Q3.
Qed.

(* When the time is up the hold action is pressed, at the very moment, before any event
   from then on. *)
Theorem C19_expired : forall text c G k x s d dl w evs freed struck e rest kf df,
  config_parse text = Ok (Some c) -> reach G c k ->
  ready k x s -> resolves k x d dl -> defers (k_cfg k) x dl s d w -> (0 <= s < w_due w)%Z ->
  Forall (apart k) evs -> suspense w [] evs freed struck -> (w_due w <= ev_time e)%Z ->
  outcome k (mkKev x true s :: evs ++ e :: rest) (Ok (kf, df)) ->
  exists k3 d3, settled k x d dl freed (w_hold w) (w_due w) struck k3
    /\ driven k3 d3 (w_due w + d3) (e :: rest) (Ok (kf, df)).
Proof.
  intros text c G k x s d dl w evs freed struck e rest kf df Hp Hr Hrd Hres Hd Hs Ha Hsu Ht H.
  destruct (press_run _ _ _ _ _ _ _ _ _ _ _ _ _ _ Hp Hr Hrd Hres Hd Hs Ha Hsu H)
    as [kx [k0 [d0 [due0 [Ew [El [N [L [S [A [C D]]]]]]]]]]].
  destruct (driven_ticks w struck e rest _ _ _ _ D S A) as [ka [da [duea [S1 [A1 [B1 [C1 [[X _]|[_ [kb [db [O1 D1]]]]]]]]]]]]; [lia|].
  pose proof (config_parse_inv _ _ Hp) as I0. destruct (reach_inv_cfg _ _ _ I0 Hr) as [I1 _].
  destruct (defers_some _ _ _ _ _ _ I1 Hres Hd) as [T1 T2].
  destruct (settle_outcome ka w struck (mkKev 0%N false (w_due w)) (w_hold w) kb db S1) as [k5 [k6 [k7 [d7 [Q1 [Q2 [Q3 Q4]]]]]]]; auto.
  - split; [cbn [ev_time]; lia|now left].
  - apply tick_not_bystander.
  - apply by_time. cbn [ev_time]. lia.
  - exists kb, db. split; [|exact D1]. exists kx, k5, k6, k7, d7. split; [exact N|]. split.
    + assert (B : same_but_timers (aside k0) k5) by (eapply sbt_trans; eauto). clear -L B.
      remember (aside k0) as k9 eqn:E9. clear E9. induction L as [k k' H|k k1 e k2 t rest k' H1 H2 H3 IH].
      * constructor. eapply sbt_trans; eauto.
      * econstructor; eauto.
    + rewrite Ew, El in Q2. split; [exact Q2|]. split; [exact Q3|exact Q4].
Qed.

(* In later calls: one event at a time, from any state with an undecided key. *)
Theorem C19_next : forall text c G k w struck e k' d',
  config_parse text = Ok (Some c) -> reach G c k -> undecided k w struck -> w_tap w <> DNone -> w_hold w <> DNone ->
  apart k e -> outcome k [e] (Ok (k', d')) ->
  (bystander w struck e -> undecided k' w struck /\ outcome (aside k) [e] (Ok (aside k', d')))
  /\ (~ bystander w struck e -> (forall a, ~ settles w struck e a) ->
      undecided k' w (if (ev_code e =? 0)%N then struck else struck ++ [e]) /\ same_but_timers (aside k) (aside k'))
  /\ (~ bystander w struck e -> forall a, settles w struck e a ->
      exists k0 k1 k2 d2, same_but_timers (aside k) k0 /\ act k0 (w_key w) a (w_from w) (ev_time e) k1
        /\ outcome k1 (if (ev_code e =? 0)%N then struck else struck ++ [e]) (Ok (k2, d2)) /\ rung (ev_time e) k2 k').
Proof.
  intros text c G k w struck e k' d' Hp Hr U T1 T2 Ap H.
  assert (S : sit k w struck) by (split; [exact U|apply (reach_uniq G c k Hr)]).
  split; [|split].
  - intros Hb. apply outcome_one in H as [f H].
    destruct (step_free f k w struck e k' d' S (apart_no_chord _ _ _ _ S Ap) Hb H) as [[S1 _] [O _]].
    split; [exact S1|]. now apply one_outcome.
  - intros Hb Hn. apply outcome_one in H as [f H].
    destruct (step_wait f k w struck e k' d' S (apart_no_chord _ _ _ _ S Ap) Hb Hn H) as [[S1 _] [B _]].
    split; [exact S1|exact B].
  - intros Hb a Hn. assert (Ea : a <> DNone) by (destruct Hn; assumption).
    exact (settle_outcome k w struck e a k' d' S Ap Hb Hn Ea H).
Qed.

(* without chords every event is of the kind asked for *)
Theorem C19_chordless : forall c k e, reach chordless c k -> (0 <= ev_time e)%Z -> apart k e.
Proof. intros c k e H Ht. split; [exact Ht|]. right. apply calm_aloof. eapply reach_calm; eauto. Qed.

(* ---- C15 -------------------------------------------------------------------------- *)
Definition w_overloadt (k : kbd) (x : N) (dl : nat) (s : Z) (l a : nat) (t : Z) : waiting :=
  mkW x dl (s + t) (nth a (c_descs (k_cfg k)) DNone) (DLayer l) Nothing.

(* whatever the other keys do before time is up and before it is released, it waits *)
Theorem C15_waits : forall x dl due tap hold evs struck,
  Forall (fun e => ev_code e <> x /\ (ev_time e < due)%Z) evs ->
  exists freed struck', suspense (mkW x dl due tap hold Nothing) struck evs freed (struck ++ struck')
    /\ forall e, In e struck' -> In e evs.
Proof.
  intros x dl due tap hold evs struck H. revert struck.
  induction H as [|e evs [H1 H2] H IH]; intros struck.
  - exists [], []. rewrite app_nil_r. split; [constructor|]. intros e [].
  - set (w := mkW x dl due tap hold Nothing) in *.
    destruct (N.eq_dec (ev_code e) 0) as [E0|E0].
    + destruct (IH struck) as [freed [st [I1 I2]]]. exists freed, st. split; [now apply su_tick|].
      intros y Hy. right. auto.
    + assert (Dec : bystander w struck e \/ ~ bystander w struck e).
      { destruct (ev_pressed e) eqn:Ep; [right; intros [_ [X _]]; congruence|].
        destruct (existsb (fun e' => (ev_code e' =? ev_code e)%N) struck) eqn:Ex.
        - right. intros [_ [_ [_ X]]]. apply existsb_code in Ex as [y [Y1 Y2]]. exact (X y Y1 Y2).
        - left. repeat split; auto. intros y Y1 Y2.
          assert (X : existsb (fun e' => (ev_code e' =? ev_code e)%N) struck = true) by (apply existsb_code; eauto).
          congruence. }
      destruct Dec as [Hb|Hb].
      * destruct (IH struck) as [freed [st [I1 I2]]]. exists (e :: freed), st. split; [now apply su_free|].
        intros y Hy. right. auto.
      * destruct (IH (struck ++ [e])) as [freed [st [I1 I2]]]. exists freed, (e :: st). split.
        -- apply su_strike; auto.
           ++ intros a X. destruct X as [X|X X1|X X1|X X1]; cbn [w_due w_key w_med w] in *; try congruence; lia.
           ++ now rewrite <- app_assoc in I1.
        -- intros y [->|Hy]; [now left|right; auto].
Qed.

Theorem C15_tap : forall text c G k x s l a t dl evs te rest kf df,
  config_parse text = Ok (Some c) -> reach G c k ->
  ready k x s -> resolves k x (DOverloadT l a t) dl -> (0 <= s)%Z -> (te < s + t)%Z -> (s < s + t)%Z ->
  Forall (apart k) (evs ++ [mkKev x false te]) -> Forall (fun e => ev_code e <> x /\ (ev_time e < s + t)%Z) evs ->
  outcome k (mkKev x true s :: evs ++ mkKev x false te :: rest) (Ok (kf, df)) ->
  exists freed struck k3 d3, suspense (w_overloadt k x dl s l a t) [] evs freed struck
    /\ settled k x (DOverloadT l a t) dl freed (nth a (c_descs (k_cfg k)) DNone) te (struck ++ [mkKev x false te]) k3
    /\ driven k3 d3 (te + d3) rest (Ok (kf, df)).
Proof.
  intros text c G k x s l a t dl evs te rest kf df Hp Hr Hrd Hres Hs Ht Hs2 Ha He H.
  destruct (C15_waits x dl (s + t) (nth a (c_descs (k_cfg k)) DNone) (DLayer l) evs [] He) as [freed [struck [Su _]]].
  cbn [app] in Su. exists freed, struck.
  assert (X : exists k3 d3, settled k x (DOverloadT l a t) dl freed (nth a (c_descs (k_cfg k)) DNone) te (struck ++ [mkKev x false te]) k3
    /\ driven k3 d3 (te + d3) rest (Ok (kf, df))).
  { eapply (C19_decided text c G k x s (DOverloadT l a t) dl (w_overloadt k x dl s l a t) evs freed struck (mkKev x false te));
      eauto; try exact (de_overloadt _ _ _ _ _ _ _).
    - intros [_ [_ [X _]]]. now apply X.
    - apply (by_itself (w_overloadt k x dl s l a t)); [exact Ht|reflexivity]. }
  destruct X as [k3 [d3 [X1 X2]]]. exists k3, d3. split; [exact Su|]. split; assumption.
Qed.

Theorem C15_hold : forall text c G k x s l a t dl evs e rest kf df,
  config_parse text = Ok (Some c) -> reach G c k ->
  ready k x s -> resolves k x (DOverloadT l a t) dl -> (0 <= s)%Z -> (s < s + t)%Z ->
  Forall (apart k) evs -> Forall (fun e => ev_code e <> x /\ (ev_time e < s + t)%Z) evs ->
  (s + t <= ev_time e)%Z ->
  outcome k (mkKev x true s :: evs ++ e :: rest) (Ok (kf, df)) ->
  exists freed struck k3 d3, suspense (w_overloadt k x dl s l a t) [] evs freed struck
    /\ settled k x (DOverloadT l a t) dl freed (DLayer l) (s + t) struck k3
    /\ driven k3 d3 (s + t + d3) (e :: rest) (Ok (kf, df)).
Proof.
  intros text c G k x s l a t dl evs e rest kf df Hp Hr Hrd Hres Hs Hs2 Ha He Ht H.
  destruct (C15_waits x dl (s + t) (nth a (c_descs (k_cfg k)) DNone) (DLayer l) evs [] He) as [freed [struck [Su _]]].
  cbn [app] in Su. exists freed, struck.
  assert (X : exists k3 d3, settled k x (DOverloadT l a t) dl freed (DLayer l) (s + t) struck k3
    /\ driven k3 d3 (s + t + d3) (e :: rest) (Ok (kf, df))).
  { apply (C19_expired text c G k x s (DOverloadT l a t) dl (w_overloadt k x dl s l a t) evs freed struck e rest kf df); auto.
    apply de_overloadt. }
  destruct X as [k3 [d3 [X1 X2]]]. exists k3, d3. split; [exact Su|]. split; assumption.
Qed.

(* nothing comes out before the decision *)
Theorem C15_silent : forall text c G k x s d dl w evs struck kf df,
  config_parse text = Ok (Some c) -> reach G c k ->
  ready k x s -> resolves k x d dl -> defers (k_cfg k) x dl s d w -> (0 <= s < w_due w)%Z ->
  Forall (apart k) evs -> suspense w [] evs [] struck ->
  outcome k (mkKev x true s :: evs) (Ok (kf, df)) ->
  k_out kf = k_out k /\ k_ls kf = k_ls k /\ k_ks kf = k_ks k.
Proof.
  intros text c G k x s d dl w evs struck kf df Hp Hr Hrd Hres Hd Hs Ha Hsu H.
  destruct (C19_undecided _ _ _ _ _ _ _ _ _ _ _ _ _ _ Hp Hr Hrd Hres Hd Hs Ha Hsu H) as [_ [[kx [N L]] _]].
  inversion L as [k1 k2 [q [ts [E _]]]|]; subst. destruct N as [i [p [qc [ts2 [_ [_ [_ [_ [_ N]]]]]]]]]. subst kx.
  assert (X : forall y, k_out (aside y) = k_out y /\ k_ls (aside y) = k_ls y /\ k_ks (aside y) = k_ks y) by (intros y; repeat split).
  destruct (X kf) as [<- [<- <-]]. rewrite E. repeat split.
Qed.

(* ---- C16 --------------------------------------------------------------------------- *)
Definition w_overloadt2 (k : kbd) (x : N) (dl : nat) (s : Z) (l a : nat) (t : Z) : waiting :=
  mkW x dl (s + t) (nth a (c_descs (k_cfg k)) DNone) (DLayer l) TapOfOther.
(* another key is tapped: the release of a key struck since settles it *)
Theorem C16_other_tapped : forall text c G k x s l a t dl evs freed struck y te rest kf df,
  config_parse text = Ok (Some c) -> reach G c k ->
  ready k x s -> resolves k x (DOverloadT2 l a t) dl -> (0 <= s)%Z -> (s < s + t)%Z ->
  Forall (apart k) (evs ++ [mkKev y false te]) -> suspense (w_overloadt2 k x dl s l a t) [] evs freed struck ->
  y <> 0%N -> y <> x -> In y (map ev_code struck) -> (te < s + t)%Z ->
  outcome k (mkKev x true s :: evs ++ mkKev y false te :: rest) (Ok (kf, df)) ->
  exists k3 d3, settled k x (DOverloadT2 l a t) dl freed (DLayer l) te (struck ++ [mkKev y false te]) k3
    /\ driven k3 d3 (te + d3) rest (Ok (kf, df)).
Proof.
  intros text c G k x s l a t dl evs freed struck y te rest kf df Hp Hr Hrd Hres Hs Hs2 Ha Su Hy0 Hyx Hin Ht H.
  eapply (C19_decided text c G k x s (DOverloadT2 l a t) dl (w_overloadt2 k x dl s l a t) evs freed struck (mkKev y false te));
    eauto; try exact (de_overloadt2 _ _ _ _ _ _ _).
  - intros [_ [_ [_ X]]]. apply in_map_iff in Hin as [e' [E1 E2]]. exact (X e' E2 E1).
  - apply (by_tap (w_overloadt2 k x dl s l a t)); auto.
Qed.
(* its own release settles it the other way *)
Theorem C16_tap : forall text c G k x s l a t dl evs freed struck te rest kf df,
  config_parse text = Ok (Some c) -> reach G c k ->
  ready k x s -> resolves k x (DOverloadT2 l a t) dl -> (0 <= s)%Z -> (s < s + t)%Z ->
  Forall (apart k) (evs ++ [mkKev x false te]) -> suspense (w_overloadt2 k x dl s l a t) [] evs freed struck ->
  (te < s + t)%Z ->
  outcome k (mkKev x true s :: evs ++ mkKev x false te :: rest) (Ok (kf, df)) ->
  exists k3 d3, settled k x (DOverloadT2 l a t) dl freed (nth a (c_descs (k_cfg k)) DNone) te (struck ++ [mkKev x false te]) k3
    /\ driven k3 d3 (te + d3) rest (Ok (kf, df)).
Proof.
  intros text c G k x s l a t dl evs freed struck te rest kf df Hp Hr Hrd Hres Hs Hs2 Ha Su Ht H.
  eapply (C19_decided text c G k x s (DOverloadT2 l a t) dl (w_overloadt2 k x dl s l a t) evs freed struck (mkKev x false te));
    eauto; try exact (de_overloadt2 _ _ _ _ _ _ _).
  - intros [_ [_ [X _]]]. now apply X.
  - apply (by_itself (w_overloadt2 k x dl s l a t)); auto.
Qed.
Theorem C16_hold : forall text c G k x s l a t dl evs freed struck e rest kf df,
  config_parse text = Ok (Some c) -> reach G c k ->
  ready k x s -> resolves k x (DOverloadT2 l a t) dl -> (0 <= s)%Z -> (s < s + t)%Z ->
  Forall (apart k) evs -> suspense (w_overloadt2 k x dl s l a t) [] evs freed struck ->
  (s + t <= ev_time e)%Z ->
  outcome k (mkKev x true s :: evs ++ e :: rest) (Ok (kf, df)) ->
  exists k3 d3, settled k x (DOverloadT2 l a t) dl freed (DLayer l) (s + t) struck k3
    /\ driven k3 d3 (s + t + d3) (e :: rest) (Ok (kf, df)).
Proof.
  intros text c G k x s l a t dl evs freed struck e rest kf df Hp Hr Hrd Hres Hs Hs2 Ha Su Ht H.
  apply (C19_expired text c G k x s (DOverloadT2 l a t) dl (w_overloadt2 k x dl s l a t) evs freed struck e rest kf df); auto.
  apply de_overloadt2.
Qed.

(* ---- C17 --------------------------------------------------------------------------- *)
Definition w_timeout (k : kbd) (x : N) (dl : nat) (s : Z) (a : nat) (t : Z) (b : nat) : waiting :=
  mkW x dl (s + t) (nth a (c_descs (k_cfg k)) DNone) (nth b (c_descs (k_cfg k)) DNone) PressOfOther.
(* the key's own event, or the press of another key, before time is up *)
Theorem C17_first : forall text c G k x s a t b dl evs freed e rest kf df,
  config_parse text = Ok (Some c) -> reach G c k ->
  ready k x s -> resolves k x (DTimeout a t b) dl -> (0 <= s)%Z -> (s < s + t)%Z ->
  Forall (apart k) (evs ++ [e]) -> suspense (w_timeout k x dl s a t b) [] evs freed [] ->
  (ev_time e < s + t)%Z -> ev_code e = x \/ (ev_code e <> 0%N /\ ev_pressed e = true) ->
  outcome k (mkKev x true s :: evs ++ e :: rest) (Ok (kf, df)) ->
  exists k3 d3, settled k x (DTimeout a t b) dl freed (nth a (c_descs (k_cfg k)) DNone) (ev_time e) [e] k3
    /\ driven k3 d3 (ev_time e + d3) rest (Ok (kf, df)).
Proof.
  intros text c G k x s a t b dl evs freed e rest kf df Hp Hr Hrd Hres Hs Hs2 Ha Su Ht He H.
  eapply (C19_decided text c G k x s (DTimeout a t b) dl (w_timeout k x dl s a t b) evs freed [] e);
    eauto; try exact (de_timeout _ _ _ _ _ _ _).
  - intros [X1 [X2 [X3 _]]]. destruct He as [He|[_ He]]; [now apply X3|congruence].
  - destruct (N.eq_dec (ev_code e) x) as [E|E].
    + apply (by_itself (w_timeout k x dl s a t b)); auto.
    + destruct He as [He|[He1 He2]]; [congruence|]. apply (by_press (w_timeout k x dl s a t b)); auto.
Qed.
Theorem C17_second : forall text c G k x s a t b dl evs freed e rest kf df,
  config_parse text = Ok (Some c) -> reach G c k ->
  ready k x s -> resolves k x (DTimeout a t b) dl -> (0 <= s)%Z -> (s < s + t)%Z ->
  Forall (apart k) evs -> suspense (w_timeout k x dl s a t b) [] evs freed [] ->
  (s + t <= ev_time e)%Z ->
  outcome k (mkKev x true s :: evs ++ e :: rest) (Ok (kf, df)) ->
  exists k3 d3, settled k x (DTimeout a t b) dl freed (nth b (c_descs (k_cfg k)) DNone) (s + t) [] k3
    /\ driven k3 d3 (s + t + d3) (e :: rest) (Ok (kf, df)).
Proof.
  intros text c G k x s a t b dl evs freed e rest kf df Hp Hr Hrd Hres Hs Hs2 Ha Su Ht H.
  apply (C19_expired text c G k x s (DTimeout a t b) dl (w_timeout k x dl s a t b) evs freed [] e rest kf df); auto.
  apply de_timeout.
Qed.
(* nothing is ever kept waiting: the first press settles it *)
Theorem C17_nothing_struck : forall k x dl s a t b evs freed struck,
  suspense (w_timeout k x dl s a t b) [] evs freed struck -> struck = [].
Proof.
  intros k x dl s a t b evs freed struck H. remember [] as q eqn:Eq.
  induction H as [q|q e evs freed struck H0 Ht _ IH|q e evs freed struck Hb Ht _ IH|q e evs freed struck H0 Hb Hn _ IH]; auto.
  subst q. pose proof (settles_dec _ _ _ Hn) as Ht.
  assert (E1 : ev_code e <> w_key (w_timeout k x dl s a t b)) by (intros E; exact (Hn _ (by_itself _ _ _ Ht E))).
  elim Hb. split; [exact H0|]. split; [|split; [exact E1|intros e' []]].
  destruct (ev_pressed e) eqn:Ep; auto. elim (Hn _ (by_press _ _ _ Ht eq_refl H0 E1 Ep)).
Qed.

(* ---- examples ------------------------------------------------------------------------ *)
Definition ex19_text : str := bs "[main]
a = overloadt(nav, x, 200)
s = overloadt2(nav, x, 200)
d = timeout(x, 200, y)
[nav]
b = left
".
Definition ex19 : config := cfg_of ex19_text.
Definition chordlessb (c : config) : bool := forallb (fun l => match ly_chords l with [] => true | _ => false end) (c_layers c).
Lemma chordlessb_ok c : chordlessb c = true -> chordless c.
Proof.
  unfold chordlessb, chordless. intros H i. rewrite forallb_forall in H.
  destruct (nth_in_or_default i (c_layers c) zero_layer) as [X|X]; [|now rewrite X].
  specialize (H _ X). destruct (ly_chords _); [reflexivity|discriminate].
Qed.
Definition runsb (k : kbd) (evs : list kev) (o : list oev) (t : Z) : bool :=
  match kbd_process_events 40 k evs with Ok (k', t') => outb o k' && (t =? t')%Z | _ => false end.
Lemma runsb_ok k evs o t : runsb k evs o t = true -> exists k', outcome k evs (Ok (k', t)) /\ rev (k_out k') = o.
Proof. apply outcome_ex. Qed.
Lemma reach_chordless c k : chordless c -> run_to c k -> reach chordless c k.
Proof. intros H. now apply run_to_reach. Qed.

(* m is held; then a is pressed, b struck, m released, a released: x, then b, in order *)
Definition ex15_tap : list kev := [D 30 10; D 48 50; U 50 60; U 30 100; U 48 120]%N.
Definition ex15_tap_out : list oev :=
  [OKey 50 true; OKey 50 false; OKey 45 true; OKey 48 true; OKey 45 false; OKey 48 false]%N.
(* the same with a held: the layer, and b is left *)
Definition ex15_hold : list kev := [D 30 10; D 48 50; U 50 60; U 48 300; U 30 400]%N.
Definition ex15_hold_out : list oev :=
  [OKey 50 true; OKey 50 false; OLayer 6 true true; OKey 105 true; OKey 105 false; OLayer 6 false false]%N.
Definition ex15_ok (k : kbd) : bool :=
  readyb k 30 10 && looksb k 30 (DOverloadT 6 0 200) 0
  && runsb k ex15_tap ex15_tap_out 90 && runsb k ex15_hold ex15_hold_out 0.
Example C15_example : config_parse ex19_text = Ok (Some ex19) /\ exists k, reach chordless ex19 k
  /\ ready k 30%N 10 /\ resolves k 30%N (DOverloadT 6 0 200) 0
  /\ Forall (apart k) [D 48 50; U 50 60; U 30 100]%N
  /\ (exists kf, outcome k ex15_tap (Ok (kf, 90%Z)) /\ rev (k_out kf) = ex15_tap_out)
  /\ (exists kf, outcome k ex15_hold (Ok (kf, 0%Z)) /\ rev (k_out kf) = ex15_hold_out).
Proof.
  split; [apply parsesb_ok; vm_compute; reflexivity|].
  assert (Hc : chordless ex19) by (apply chordlessb_ok; vm_compute; reflexivity).
  destruct (check_run_ok ex19 [[D 50 0%Z]]%N ex15_ok) as [k [Hr H]]; [vm_compute; reflexivity|].
  pose proof (reach_chordless _ _ Hc Hr) as R.
  exists k. unfold ex15_ok in H. rewrite !andb_true_iff in H. destruct H as [[[H1 H2] H3] H4].
  split; [exact R|]. split; [now apply readyb_ok|]. split; [exact (looksb_ok _ _ _ _ _ _ R H2)|].
  split; [|split; [exact (runsb_ok _ _ _ _ H3)|exact (runsb_ok _ _ _ _ H4)]].
  apply Forall_forall; intros e He; split; [|right; apply calm_aloof; eapply reach_calm; exact R].
  cbn [In] in He. repeat destruct He as [<-|He]; try destruct He; cbn [ev_time D U]; lia.
Qed.

(* overloadt2: b tapped while s is held selects the layer at once; overlapping but
   released after s it does not *)
Definition ex16_other : list kev := [D 31 10; D 48 50; U 48 80; U 31 100]%N.
Definition ex16_other_out : list oev := [OLayer 6 true true; OKey 105 true; OKey 105 false; OLayer 6 false false]%N.
Definition ex16_tap : list kev := [D 31 10; D 48 50; U 31 80; U 48 100]%N.
Definition ex16_tap_out : list oev := [OKey 45 true; OKey 48 true; OKey 45 false; OKey 48 false]%N.
Definition ex16_ok (k : kbd) : bool :=
  readyb k 31 10 && looksb k 31 (DOverloadT2 6 1 200) 0
  && runsb k ex16_other ex16_other_out 110 && runsb k ex16_tap ex16_tap_out 110.
Example C16_example : config_parse ex19_text = Ok (Some ex19) /\ exists k, reach chordless ex19 k
  /\ ready k 31%N 10 /\ resolves k 31%N (DOverloadT2 6 1 200) 0
  /\ Forall (apart k) [D 48 50; U 48 80; U 31 80]%N
  /\ suspense (w_overloadt2 k 31 0 10 6 1 200) [] [D 48 50]%N [] [D 48 50]%N
  /\ (exists kf, outcome k ex16_other (Ok (kf, 110%Z)) /\ rev (k_out kf) = ex16_other_out)
  /\ (exists kf, outcome k ex16_tap (Ok (kf, 110%Z)) /\ rev (k_out kf) = ex16_tap_out).
Proof.
  split; [apply parsesb_ok; vm_compute; reflexivity|].
  assert (Hc : chordless ex19) by (apply chordlessb_ok; vm_compute; reflexivity).
  destruct (check_run_ok ex19 [] ex16_ok) as [k [Hr H]]; [vm_compute; reflexivity|].
  pose proof (reach_chordless _ _ Hc Hr) as R.
  exists k. unfold ex16_ok in H. rewrite !andb_true_iff in H. destruct H as [[[H1 H2] H3] H4].
  split; [exact R|]. split; [now apply readyb_ok|]. split; [exact (looksb_ok _ _ _ _ _ _ R H2)|].
  split; [|split; [|split; [exact (runsb_ok _ _ _ _ H3)|exact (runsb_ok _ _ _ _ H4)]]].
  - apply Forall_forall; intros e He; split; [|right; apply calm_aloof; eapply reach_calm; exact R].
  cbn [In] in He. repeat destruct He as [<-|He]; try destruct He; cbn [ev_time D U]; lia.
  - apply su_strike; [discriminate| | |constructor].
    + intros [_ [X _]]. discriminate X.
    + intros a X. clear -X. destruct X as [X|X X1|X X1|X X1 X2 X3 X4];
        cbn [w_overloadt2 w_due w_key w_med ev_time ev_code ev_pressed D] in *; try discriminate; lia.
Qed.

(* timeout: pressed and released in time, interrupted in time, and held *)
Definition ex17_tap_out : list oev := [OKey 45 true; OKey 45 false]%N.
Definition ex17_int_out : list oev := [OKey 45 true; OKey 48 true; OKey 48 false; OKey 45 false]%N.
Definition ex17_hold_out : list oev := [OKey 21 true; OKey 48 true; OKey 48 false; OKey 21 false]%N.
Definition ex17_ok (k : kbd) : bool :=
  readyb k 32 10 && looksb k 32 (DTimeout 3 200 2) 0
  && runsb k [D 32 10; U 32 100]%N ex17_tap_out 110
  && runsb k [D 32 10; D 48 50; U 48 80; U 32 300]%N ex17_int_out 0
  && runsb k [D 32 10; D 48 250; U 48 280; U 32 300]%N ex17_hold_out 0.
Example C17_example : config_parse ex19_text = Ok (Some ex19) /\ exists k, reach chordless ex19 k
  /\ ready k 32%N 10 /\ resolves k 32%N (DTimeout 3 200 2) 0
  /\ Forall (apart k) [D 48 50; U 48 80; U 32 100]%N
  /\ (exists kf, outcome k [D 32 10; U 32 100]%N (Ok (kf, 110%Z)) /\ rev (k_out kf) = ex17_tap_out)
  /\ (exists kf, outcome k [D 32 10; D 48 50; U 48 80; U 32 300]%N (Ok (kf, 0%Z)) /\ rev (k_out kf) = ex17_int_out)
  /\ (exists kf, outcome k [D 32 10; D 48 250; U 48 280; U 32 300]%N (Ok (kf, 0%Z)) /\ rev (k_out kf) = ex17_hold_out).
Proof.
  split; [apply parsesb_ok; vm_compute; reflexivity|].
  assert (Hc : chordless ex19) by (apply chordlessb_ok; vm_compute; reflexivity).
  destruct (check_run_ok ex19 [] ex17_ok) as [k [Hr H]]; [vm_compute; reflexivity|].
  pose proof (reach_chordless _ _ Hc Hr) as R.
  exists k. unfold ex17_ok in H. rewrite !andb_true_iff in H. destruct H as [[[[H1 H2] H3] H4] H5].
  split; [exact R|]. split; [now apply readyb_ok|]. split; [exact (looksb_ok _ _ _ _ _ _ R H2)|].
  split; [|split; [exact (runsb_ok _ _ _ _ H3)|split; [exact (runsb_ok _ _ _ _ H4)|exact (runsb_ok _ _ _ _ H5)]]].
  apply Forall_forall; intros e He; split; [|right; apply calm_aloof; eapply reach_calm; exact R].
  cbn [In] in He. repeat destruct He as [<-|He]; try destruct He; cbn [ev_time D U]; lia.
Qed.

(* ---- chords break the order ------------------------------------------------------------ *)
(* j starts a chord; c is struck before j, while a is undecided.  When a is decided, j is
   still held back by the chord; replaying c breaks the chord, and j comes out first. *)
Definition ex19c_text : str := bs "[main]
a = overloadt(nav, x, 200)
j+k = esc
[nav]
z = y
".
Definition ex19c_evs : list kev := [D 30 0; D 46 20; D 36 190; T 300]%N.
Theorem C19_chords_refuted : exists text c evs kf t,
  config_parse text = Ok (Some c) /\ evs = [D 30 0; D 46 20; D 36 190; T 300]%N
  /\ outcome (new_keyboard c 1) evs (Ok (kf, t))
  /\ rev (k_out kf) = [OLayer 6 true true; OKey 36 true; OKey 46 true]%N.
Proof.
  exists ex19c_text, (cfg_of ex19c_text), ex19c_evs.
  assert (H : runsb (new_keyboard (cfg_of ex19c_text) 1) ex19c_evs [OLayer 6 true true; OKey 36 true; OKey 46 true]%N 0 = true)
    by (vm_compute; reflexivity).
  apply runsb_ok in H as [kf [H1 H2]]. exists kf, 0%Z.
  split; [apply parsesb_ok; vm_compute; reflexivity|]. split; [reflexivity|]. split; [exact H1|exact H2].
Qed.

Definition C15_all := (C15_waits, C15_tap, C15_hold, C15_silent).
Print Assumptions C15_all.
Definition C16_all := (C16_other_tapped, C16_tap, C16_hold).
Print Assumptions C16_all.
Definition C17_all := (C17_first, C17_second, C17_nothing_struck).
Print Assumptions C17_all.
Definition C19_all := (C19_undecided, C19_decided, C19_expired, C19_next, C19_chordless, C19_chords_refuted).
Print Assumptions C19_all.
