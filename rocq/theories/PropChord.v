(* C20, C21: chords. *)
From Coq Require Import String Permutation.
From Verif Require Import Base Lib Keys Types MacroExec Kbd Config Steps Hist SpecHist SpecMods SpecLookup SpecActions SpecWf
  SpecKept Engine Inv Wf WfEvents ParseWf WfHist ExTools ModsProofs LookupProofs TermProofs SpecTerm PropTerm ClassInv KeptProofs
  CacheProofs StepProofs SpecDefer DeferProofs PropDefer SpecChord ChordBare ChordProofs ChordLife ChordTools.
Local Open Scope nat_scope.
Local Open Scope list_scope.
Local Notation length := List.length.

Lemma reach_facts text c (G : config -> Prop) k : config_parse text = Ok (Some c) -> reach G c k ->
  wf_config (k_cfg k) /\ (forall i, (0 <= l_time (k_ls k i))%Z) /\ uniq (k_cache k) /\ length (k_achords k) <= 3
  /\ (p_code (k_pend k) = 0%N -> p_queue (k_pend k) = []).
Proof.
  intros Hp Hr. pose proof (config_parse_inv _ _ Hp) as I0. destruct (reach_inv_cfg _ _ _ I0 Hr) as [[W Hm] _].
  split; [exact W|]. split; [apply (reach_times G c), Hr|]. split; [apply (reach_uniq G c k Hr)|].
  split; [apply (reach_uniq G c k Hr)|apply (reach_pqueue G c k Hr)].
Qed.

(* ---- C20: a chord is struck ----------------------------------------------------------------- *)
Lemma struck_facts k i ch gap evs : unambiguous k i ch -> struck (ch_keys ch) gap evs ->
  exists p e, evs = p ++ [e] /\ hopeful k p /\ ~ begun k evs /\ winner k evs i ch.
Proof.
  intros [Ha [Hk [[pre [post [Hc Ho]]] Hj]]] [P _].
  assert (Hl : length evs = length (ch_keys ch)) by (rewrite <- (Permutation_length P); now rewrite map_length).
  assert (Hat : chord_at k i ch) by (split; [exact Ha|rewrite Hc; apply in_elt]).
  assert (Hfit : fits ch evs).
  { apply Forall_forall. intros e He. eapply Permutation_in; [exact P|]. now apply in_map. }
  assert (Hin : forall c, fits c evs -> incl (ch_keys ch) (ch_keys c)).
  { intros c F x Hx. apply (Permutation_in _ (Permutation_sym P)) in Hx. apply in_map_iff in Hx as [e [<- He]].
    unfold fits in F. rewrite Forall_forall in F. auto. }
  assert (Honly : forall j c, chord_at k j c -> fits c evs -> j = i /\ length evs = length (ch_keys c)).
  { intros j c Hjc F. destruct (Nat.eq_dec j i) as [->|Hn]; [|elim (Hj j c Hn Hjc); auto]. split; [reflexivity|].
    destruct Hjc as [_ Hic]. rewrite Hc in Hic. rewrite Forall_forall in Ho. apply in_app_or in Hic as [Hic|[<-|Hic]].
    - elim (Ho c); auto. apply in_or_app. auto.
    - exact Hl.
    - elim (Ho c); auto. apply in_or_app. auto. }
  assert (Hne : evs <> []) by (intros ->; cbn in Hl; destruct (ch_keys ch); [congruence|discriminate]).
  destruct (exists_last Hne) as [p [e E]]. exists p, e. split; [exact E|]. split; [|split].
  - intros p1 q E1 Hp1. exists i, ch. split; [exact Hat|]. subst evs p. split.
    + unfold fits in *. rewrite Forall_forall in *. intros x Hx. apply Hfit. apply in_or_app. left. apply in_or_app. auto.
    + rewrite !app_length in Hl. cbn [length] in Hl. lia.
  - intros [j [c [H1 [H2 H3]]]]. apply H3. now apply (Honly j).
  - split; [exact Ha|]. split; [now split|]. split.
    + exists pre, post. split; [exact Hc|]. intros c Hic [F _]. rewrite Forall_forall in Ho. elim (Ho c); auto.
      apply in_or_app. auto.
    + intros j c Hjc [F _]. destruct (Honly j c Hjc F) as [-> _]. right. split; [reflexivity|lia].
Qed.

Lemma fires_at text c (G : config -> Prop) k p e i ch s rest r :
  config_parse text = Ok (Some c) -> reach G c k -> idle k -> (0 < c_chord_interkey (k_cfg k))%Z ->
  spaced (c_chord_interkey (k_cfg k)) (p ++ [e]) -> hopeful k p -> ~ begun k (p ++ [e]) -> winner k (p ++ [e]) i ch ->
  c_chord_hold (k_cfg k) = 0%Z -> nothing_due k (ev_time e) -> room_for_chord k s ->
  outcome k (p ++ e :: rest) (Ok r) ->
  exists k3 d3, fires k (p ++ [e]) s ch i (ev_time e) [] (ev_time e) k3
    /\ driven k3 d3 (ev_time e + d3) rest (Ok r).
Proof.
  intros Hp Hr [Hi1 Hi2] Hik Hs Hh Hb Hw H0 Hn [Hf1 [Hf2 Hf3]] H.
  destruct (reach_facts _ _ _ _ Hp Hr) as [W [Ht [_ [Hsl _]]]]. apply C30_batch in H; [|exact W].
  destruct (arrive k Hi1 Ht Hsl r p e rest Hi2 Hs Hik Hh Hn H) as [k0 [k1 [d1 [P [O D]]]]].
  destruct (spaced_snoc k Hi1 Hsl p e Hs) as [_ [He [_ [Fp _]]]].
  apply outcome_one in O as [f O]. pose proof He as [He1 _]. rewrite He1 in O.
  exists k1, d1. split; [|exact D]. eapply stroke_fires; eauto.
Qed.

(* All keys of an unambiguous chord are struck, in whatever order and with whatever delays
   below the limit: the chord's action is pressed, once, with the last key, and nothing else
   happens: nothing was done about the keys before. *)
Theorem C20_strike : forall text c (G : config -> Prop) k i ch evs s rest kf df,
  config_parse text = Ok (Some c) -> reach G c k -> idle k -> (0 < c_chord_interkey (k_cfg k))%Z ->
  unambiguous k i ch -> struck (ch_keys ch) (c_chord_interkey (k_cfg k)) evs -> c_chord_hold (k_cfg k) = 0%Z ->
  nothing_due k (last_time evs) -> room_for_chord k s ->
  outcome k (evs ++ rest) (Ok (kf, df)) ->
  exists k3 d3, fires k evs s ch i (last_time evs) [] (last_time evs) k3
    /\ driven k3 d3 (last_time evs + d3) rest (Ok (kf, df)).
Proof.
  intros text c G k i ch evs s rest kf df Hp Hr Hi Hik Hu Hst H0 Hn Hrm H.
  destruct (struck_facts _ _ _ _ _ Hu Hst) as [p [e [-> [Hh [Hb Hw]]]]]. rewrite last_time_snoc in *.
  rewrite <- app_assoc in H. cbn [app] in H. eapply fires_at; eauto. apply Hst.
Qed.

(* What that means: in k but for the timers and the chord machinery, the slot and the action
   are noted, and the action is performed. *)
Theorem C20_pressed : forall k evs s ch i t now k3, fires k evs s ch i t [] now k3 ->
  exists kx k1 q ts, chord_noted k evs s ch i kx /\ do_desc kx (slot_code s) (ch_d ch) i true t = Ok k1
    /\ h_state q = CsInactive /\ k3 = set_k_timeouts ts (set_k_chord q (set_k_cfg (k_cfg k) k1)).
Proof.
  intros k evs s ch i t now k3 [kx [k1 [kb [d [N [E [O [q [R ->]]]]]]]]]. apply outcome_nil in O. subst kb.
  exists kx, k1, q. eexists. split; [exact N|]. split; [exact E|]. split; [exact R|]. destruct k1. reflexivity.
Qed.

(* The general rule, for chords that share keys: when no chord is possible any more but one
   or several are complete, the winner's action is pressed. *)
Theorem C20_rule : forall text c (G : config -> Prop) k p e i ch s rest kf df,
  config_parse text = Ok (Some c) -> reach G c k -> idle k -> (0 < c_chord_interkey (k_cfg k))%Z ->
  spaced (c_chord_interkey (k_cfg k)) (p ++ [e]) -> hopeful k p -> ~ begun k (p ++ [e]) -> winner k (p ++ [e]) i ch ->
  c_chord_hold (k_cfg k) = 0%Z -> nothing_due k (ev_time e) -> room_for_chord k s ->
  outcome k (p ++ e :: rest) (Ok (kf, df)) ->
  exists k3 d3, fires k (p ++ [e]) s ch i (ev_time e) [] (ev_time e) k3
    /\ driven k3 d3 (ev_time e + d3) rest (Ok (kf, df)).
Proof. intros text c G k p e i ch s rest kf df. apply fires_at. Qed.

(* A longer chord is possible, but the time for its next key passes: the longest complete
   chord fires, at that moment; keys struck on top are processed as if there were no
   chords. *)
Theorem C20_longer : forall text c (G : config -> Prop) k evs i ch extra s e rest kf df,
  config_parse text = Ok (Some c) -> reach G c k -> idle k -> (0 < c_chord_interkey (k_cfg k))%Z ->
  evs <> [] -> spaced (c_chord_interkey (k_cfg k)) evs -> hopeful k evs -> longest k evs i ch extra ->
  (c_chord_hold (k_cfg k) <= c_chord_interkey (k_cfg k))%Z ->
  (last_time evs + c_chord_interkey (k_cfg k) <= ev_time e)%Z ->
  nothing_due k (last_time evs + c_chord_interkey (k_cfg k)) -> room_for_chord k s ->
  outcome k (evs ++ e :: rest) (Ok (kf, df)) ->
  let now := (last_time evs + c_chord_interkey (k_cfg k))%Z in
  exists k3 d3, fires k evs s ch i (last_time evs) extra now k3 /\ driven k3 d3 (now + d3) (e :: rest) (Ok (kf, df)).
Proof.
  intros text c G k evs i ch extra s e rest kf df Hp Hr [Hi1 Hi2] Hik Hne Hs Hh Hl Hle Ht2 Hn [Hf1 [Hf2 Hf3]] H now.
  destruct (reach_facts _ _ _ _ Hp Hr) as [W [Ht [_ [Hsl _]]]]. apply C30_batch in H; [|exact W].
  destruct (attempt_late k Hi1 Ht Hsl (kf, df) evs e rest Hi2 Hne Hs Hik Hh Ht2 Hn H) as [k0 [k1 [d1 [M [O D]]]]].
  apply outcome_one in O as [f O]. exists k1, d1. split; [|exact D].
  eapply late_fires; eauto; [lia|]. eapply (nothing_due_le k Hi1 Hsl); [exact Hn|lia].
Qed.

(* A chord that has to be held: it fires when it has been held long enough; presses
   meanwhile, and releases of other keys, are processed after it, in order, as if there were
   no chords. *)
Theorem C20_held : forall text c (G : config -> Prop) k evs i ch extra since ds s e rest kf df,
  config_parse text = Ok (Some c) -> reach G c k -> idle k -> (0 < c_chord_interkey (k_cfg k))%Z ->
  evs <> [] -> spaced (c_chord_interkey (k_cfg k)) evs ->
  let due := (last_time evs + c_chord_hold (k_cfg k))%Z in
  awaits_hold k evs i ch extra since -> nothing_due k due -> (0 <= since <= due)%Z ->
  Forall (fun e => beside k ch e /\ (since <= ev_time e < due)%Z) ds -> (due <= ev_time e)%Z -> room_for_chord k s ->
  outcome k (evs ++ ds ++ e :: rest) (Ok (kf, df)) ->
  exists k3 d3, fires k evs s ch i (last_time evs) (extra ++ ds) due k3 /\ driven k3 d3 (due + d3) (e :: rest) (Ok (kf, df)).
Proof.
  intros text c G k evs i ch extra since ds s e rest kf df Hp Hr [Hi1 Hi2] Hik Hne Hs due Ha Hn Hsi Hds Ht2 [Hf1 [Hf2 Hf3]] H.
  destruct (reach_facts _ _ _ _ Hp Hr) as [W [Ht [_ [Hsl _]]]]. apply C30_batch in H; [|exact W].
  assert (Hnd : forall t, (t <= due)%Z -> nothing_due k t) by (intros t Hle; eapply (nothing_due_le k Hi1 Hsl); eauto).
  assert (Hd2 : Forall (fun e => beside k ch e /\ (0 <= ev_time e < due)%Z /\ (since <= ev_time e)%Z /\ nothing_due k (ev_time e)) ds).
  { eapply Forall_impl; [|exact Hds]. intros x [X1 X2]. split; [exact X1|]. split; [lia|]. split; [lia|]. apply Hnd. lia. }
  destruct (held_late k Hi1 Ht Hsl (kf, df) rest evs i ch extra since ds e Hi2 Hne Hs Hik Ha (Hnd since ltac:(lia)) Hd2
              ltac:(unfold due in *; lia) Ht2 Hn H) as [k0 [k1 [d1 [M [O D]]]]].
  apply outcome_one in O as [f O]. exists k1, d1. split; [|exact D].
  eapply hold_over; eauto; [unfold due; cbn [ev_time]; lia|]. apply Hnd. unfold due.
  destruct Ha as [[p [y [-> [_ [_ [_ [_ [X ->]]]]]]]]|[_ [_ [X ->]]]]; [rewrite last_time_snoc|]; lia.
Qed.

(* ---- C20: release ------------------------------------------------------------------------------- *)
(* one key of the chord is released, others are still down: nothing happens *)
Theorem C20_part : forall k s x t d i k' d', physical x -> in_slot k s x d i -> first_slot k s x -> ~ last_in_slot k s x ->
  outcome k [mkKev x false t] (Ok (k', d')) ->
  exists acs, k' = set_k_timeouts (filter (fun y => (t <? y)%Z) (k_timeouts k)) (set_k_achords acs k)
    /\ (forall j, j <> s -> nth_error acs j = nth_error (k_achords k) j)
    /\ forall z, z <> 0%N -> (in_slot k' s z d i <-> in_slot k s z d i /\ z <> x).
Proof.
  intros k s x t d i k' d' Hx Hi Hf Hl H. apply outcome_one in H as [f H]. eapply part_released; eauto.
Qed.

(* From the stroke on, whatever other keys, timers and live rebinds do while some key x of
   the chord is down, the chord keeps its slot and its action; when x is the last of its
   keys to be released, the action is released.  (The exceptions are those of C07.) *)
Theorem C20_release : forall text c (G : config -> Prop) k i ch evs s k3 d3 x k4 t k5 d5,
  config_parse text = Ok (Some c) -> reach G c k -> idle k -> (0 < c_chord_interkey (k_cfg k))%Z ->
  unambiguous k i ch -> struck (ch_keys ch) (c_chord_interkey (k_cfg k)) evs -> c_chord_hold (k_cfg k) = 0%Z ->
  nothing_due k (last_time evs) -> room_for_chord k s ->
  fixed_at_press (ch_d ch) -> holds_no_layer (ch_d ch) \/ (forall c, G c -> swap_free c) ->
  outcome k evs (Ok (k3, d3)) ->
  In x (ch_keys ch) -> physical x -> during G s x k3 k4 ->
  in_slot k4 s x (ch_d ch) i
  /\ (last_in_slot k4 s x -> first_slot k4 s x -> h_state (k_chord k4) = CsInactive -> unchorded k4 (slot_code s) ->
      nothing_due k4 t -> outcome k4 [mkKev x false t] (Ok (k5, d5)) ->
      exists acs q ca k6, (forall j, j <> s -> nth_error acs j = nth_error (k_achords k4) j)
        /\ (exists a, nth_error acs s = Some a /\ ac_active a = false) /\ h_state q = CsInactive
        /\ do_desc (set_k_cache ca (set_k_chord q (set_k_achords acs k4))) (slot_code s) (ch_d ch) i false t = Ok k6
        /\ k5 = set_k_timeouts (filter (fun y => (t <? y)%Z) (k_timeouts k6)) k6).
Proof.
  intros text c G k i ch evs s k3 d3 x k4 t k5 d5 Hp Hr Hi Hik Hu Hst H0 Hn Hrm Hf Hcl H Hx Hph Hd.
  destruct (reach_facts _ _ _ _ Hp Hr) as [W [Ht [Un [Hsl Hq]]]].
  assert (Hr3 : reach G c k3).
  { destruct H as [_ [f H]]. specialize (H f (le_n _)). eapply reach_events; eauto. }
  assert (F : fires k evs s ch i (last_time evs) [] (last_time evs) k3).
  { rewrite <- (app_nil_r evs) in H. destruct (C20_strike _ _ _ _ _ _ _ _ _ _ _ Hp Hr Hi Hik Hu Hst H0 Hn Hrm H) as [k3' [d3' [F D]]].
    inversion D; subst. exact F. }
  destruct (fires_leaves _ _ _ _ _ _ _ _ Hi Un (proj1 (proj2 Hrm)) Hq (proj1 Hrm) F Hf) as [D1 [S1 [l [R1 L1]]]].
  destruct (reach_facts _ _ _ _ Hp Hr3) as [_ [_ [U3 [A3 _]]]].
  assert (K : exists sw, (~ sw \/ l = 0) /\ (sw \/ forall c, G c -> swap_free c)
              /\ kept sw (slot_code s) (ch_d ch) i l k3).
  { destruct Hcl as [Hnl|Hsf].
    - exists True. split; [auto|]. split; [auto|]. split; [repeat split; auto|]. split; [exact R1|apply D1].
    - exists False. split; [auto|]. split; [auto|]. split; [|split; [exact R1|apply D1]].
      split; [exact U3|split; [exact A3|]]. right. eapply reach_alld; [apply nonswap_closed| |exact Hr3].
      intros c0 Hc0. apply swap_free_all. auto. }
  destruct K as [sw [K1 [K2 K3]]].
  assert (Iq : IQ (chord_kept s x (ch_d ch) i sw l) (not_freeing s x) k3).
  { split; [split; [exact K3|now apply S1]|]. destruct F as [kx [ka [kb [dd [N0 [E0 [O [q [Q1 Q2]]]]]]]]].
    apply outcome_nil in O. subst kb. split.
    - unfold live. rewrite Q2. cbn [k_chord set_k_timeouts set_k_chord]. rewrite Q1. constructor.
    - rewrite Q2. cbn [k_pend set_k_timeouts set_k_chord set_k_cfg no_chords].
      apply do_desc_frame in E0 as [_ [_ [_ [_ [E0 _]]]]]. rewrite E0. destruct N0 as [j [q0 [ts [_ [_ [_ ->]]]]]].
      cbn [k_pend set_k_cache set_k_achords set_k_chord set_k_timeouts]. rewrite (Hq (proj1 Hi)). constructor. }
  pose proof (during_kept s x (ch_d ch) i Hph sw l K1 G k3 k4 K2 Hd Iq) as [[[[U4 _] [R4 P4]] S4] [_ Q4]].
  split; [exact S4|]. intros Hl Hfs Hs Hu4 Hn4 O. apply outcome_one in O as [f O].
  eapply last_released; eauto. split; [exact P4|]. split.
  - rewrite Forall_forall in Q4. intros e He. apply Q4 in He as [He _]. exact He.
  - intros [X|X]; congruence.
Qed.

(* ---- C21: an attempt fails ---------------------------------------------------------------- *)
(* Keys that begin a chord are struck, and the time for the next key passes: they are
   processed, at that moment, as if there were no chords. *)
Theorem C21_timeout : forall text c (G : config -> Prop) k evs e rest kf df,
  config_parse text = Ok (Some c) -> reach G c k -> idle k -> (0 < c_chord_interkey (k_cfg k))%Z ->
  evs <> [] -> spaced (c_chord_interkey (k_cfg k)) evs -> hopeful k evs -> none_complete k evs ->
  let now := (last_time evs + c_chord_interkey (k_cfg k))%Z in
  (now <= ev_time e)%Z -> nothing_due k now ->
  outcome k (evs ++ e :: rest) (Ok (kf, df)) ->
  exists k3 d3, given_up k evs [] now k3 /\ driven k3 d3 (now + d3) (e :: rest) (Ok (kf, df)).
Proof.
  intros text c G k evs e rest kf df Hp Hr [Hi1 Hi2] Hik Hne Hs Hh Hc now Ht2 Hn H.
  destruct (reach_facts _ _ _ _ Hp Hr) as [W [Ht [_ [Hsl _]]]]. apply C30_batch in H; [|exact W].
  destruct (attempt_late k Hi1 Ht Hsl (kf, df) evs e rest Hi2 Hne Hs Hik Hh Ht2 Hn H) as [k0 [k1 [d1 [M [O D]]]]].
  apply outcome_one in O as [f O]. exists k1, d1. split; [|exact D].
  eapply late_gives_up; eauto. unfold now. cbn [ev_time]. lia.
Qed.

(* ... a key is struck with which they neither make nor begin a chord. *)
Theorem C21_foreign : forall text c (G : config -> Prop) k p e rest kf df,
  config_parse text = Ok (Some c) -> reach G c k -> idle k -> (0 < c_chord_interkey (k_cfg k))%Z ->
  p <> [] -> spaced (c_chord_interkey (k_cfg k)) (p ++ [e]) -> hopeful k p ->
  ~ begun k (p ++ [e]) -> unfinished k (p ++ [e]) -> nothing_due k (ev_time e) ->
  outcome k (p ++ e :: rest) (Ok (kf, df)) ->
  exists k3 d3, given_up k p [e] (ev_time e) k3 /\ driven k3 d3 (ev_time e + d3) rest (Ok (kf, df)).
Proof.
  intros text c G k p e rest kf df Hp Hr [Hi1 Hi2] Hik Hne Hs Hh Hb Hu Hn H.
  destruct (reach_facts _ _ _ _ Hp Hr) as [W [Ht [_ [Hsl _]]]]. apply C30_batch in H; [|exact W].
  destruct (arrive k Hi1 Ht Hsl (kf, df) p e rest Hi2 Hs Hik Hh Hn H) as [k0 [k1 [d1 [P [O D]]]]].
  destruct (spaced_snoc k Hi1 Hsl p e Hs) as [_ [He [_ [Fp _]]]].
  apply outcome_one in O as [f O]. pose proof He as [He1 _]. rewrite He1 in O.
  exists k1, d1. split; [|exact D]. eapply stroke_foreign; eauto.
Qed.

(* ... a key is released (of the chord or not: any key that belongs to no chord that has
   fired); also when a shorter chord is complete already. *)
Theorem C21_release : forall text c (G : config -> Prop) k evs e rest kf df,
  config_parse text = Ok (Some c) -> reach G c k -> idle k -> (0 < c_chord_interkey (k_cfg k))%Z ->
  evs <> [] -> spaced (c_chord_interkey (k_cfg k)) evs -> hopeful k evs ->
  release e -> loose k (ev_code e) ->
  (last_time evs <= ev_time e < last_time evs + c_chord_interkey (k_cfg k))%Z -> nothing_due k (ev_time e) ->
  outcome k (evs ++ e :: rest) (Ok (kf, df)) ->
  exists k3 d3, given_up k evs [e] (ev_time e) k3 /\ driven k3 d3 (ev_time e + d3) rest (Ok (kf, df)).
Proof.
  intros text c G k evs e rest kf df Hp Hr [Hi1 Hi2] Hik Hne Hs Hh He Hl Ht2 Hn H.
  destruct (reach_facts _ _ _ _ Hp Hr) as [W [Ht [_ [Hsl _]]]]. apply C30_batch in H; [|exact W].
  destruct (attempt_next k Hi1 Ht Hsl (kf, df) evs e rest Hi2 Hne Hs Hik Hh Ht2 Hn H) as [k0 [k1 [d1 [M [O D]]]]].
  apply outcome_one in O as [f O]. rewrite (proj1 He) in O.
  exists k1, d1. split; [|exact D]. eapply release_gives_up; eauto.
Qed.

(* The chord is complete but has to be held, and one of its keys is released too early. *)
Theorem C21_hold : forall text c (G : config -> Prop) k evs i ch extra since ds e rest kf df,
  config_parse text = Ok (Some c) -> reach G c k -> idle k -> (0 < c_chord_interkey (k_cfg k))%Z ->
  evs <> [] -> spaced (c_chord_interkey (k_cfg k)) evs ->
  let due := (last_time evs + c_chord_hold (k_cfg k))%Z in
  awaits_hold k evs i ch extra since -> nothing_due k (ev_time e) -> (0 <= since <= ev_time e)%Z -> (ev_time e < due)%Z ->
  Forall (fun x => beside k ch x /\ (since <= ev_time x <= ev_time e)%Z) ds ->
  release e -> loose k (ev_code e) -> In (ev_code e) (ch_keys ch) ->
  outcome k (evs ++ ds ++ e :: rest) (Ok (kf, df)) ->
  exists k3 d3, given_up k (evs ++ ds) [e] (ev_time e) k3 /\ driven k3 d3 (ev_time e + d3) rest (Ok (kf, df)).
Proof.
  intros text c G k evs i ch extra since ds e rest kf df Hp Hr [Hi1 Hi2] Hik Hne Hs due Ha Hn Hsi Ht2 Hds He Hl Hin H.
  destruct (reach_facts _ _ _ _ Hp Hr) as [W [Ht [_ [Hsl _]]]]. apply C30_batch in H; [|exact W].
  assert (Hnd : forall t, (t <= ev_time e)%Z -> nothing_due k t) by (intros t Hle; eapply (nothing_due_le k Hi1 Hsl); eauto).
  assert (Hd2 : Forall (fun e => beside k ch e /\ (0 <= ev_time e < due)%Z /\ (since <= ev_time e)%Z /\ nothing_due k (ev_time e)) ds).
  { eapply Forall_impl; [|exact Hds]. intros x [X1 X2]. split; [exact X1|]. split; [lia|]. split; [lia|]. apply Hnd. lia. }
  destruct (held_next k Hi1 Ht Hsl (kf, df) rest evs i ch extra since ds e Hi2 Hne Hs Hik Ha (Hnd since ltac:(lia)) Hd2
              ltac:(unfold due in *; lia) Hn H) as [k0 [k1 [d1 [M [O D]]]]].
  apply outcome_one in O as [f O]. exists k1, d1. split; [|exact D].
  eapply hold_event; eauto. intros [[X _]|[_ [_ X]]]; [|exact (X Hin)]. destruct He as [He _]. congruence.
Qed.

(* ---- examples --------------------------------------------------------------------------- *)
Definition ex20_text : str := bs "[main]
a+b = x
a+b+c = y
j+k = z
d+e = layer(nav)

[nav]
j = left
".
Definition ex20 : config := cfg_of ex20_text.
Lemma ex20_parses : config_parse ex20_text = Ok (Some ex20).
Proof. apply parsesb_ok. vm_compute. reflexivity. Qed.
Definition ex20_k : kbd := new_keyboard ex20 1.
Definition anyc (c : config) : Prop := True.
Lemma ex20_reach : reach anyc ex20 ex20_k.
Proof. apply reach_init; [lia|exact Logic.I]. Qed.
Lemma ex20_times : timesb ex20_k.
Proof. exact (proj2 (reach_times anyc ex20 ex20_k ex20_reach)). Qed.
Definition jk : chord := mkChord [36; 37]%N (DKey 44 0).

Example C20_example :
  config_parse ex20_text = Ok (Some ex20) /\ reach anyc ex20 ex20_k /\ idle ex20_k
  /\ c_chord_interkey (k_cfg ex20_k) = 50%Z /\ c_chord_hold (k_cfg ex20_k) = 0%Z
  /\ unambiguous ex20_k 0 jk /\ struck (ch_keys jk) 50 [D 37 10; D 36 40]%N
  /\ nothing_due ex20_k 40 /\ room_for_chord ex20_k 0
  /\ exists kf, outcome ex20_k ([D 37 10; D 36 40] ++ [U 36 100; U 37 120])%N (Ok (kf, 0%Z))
       /\ rev (k_out kf) = [OKey 44 true; OKey 44 false]%N.
Proof.
  split; [exact ex20_parses|]. split; [exact ex20_reach|].
  split; [apply idleb_ok; vm_compute; reflexivity|]. split; [vm_compute; reflexivity|]. split; [vm_compute; reflexivity|].
  split.
  { replace jk with (chord_of ex20_k 0 2) by (vm_compute; reflexivity). apply unambiguousb_ok. vm_compute. reflexivity. }
  split.
  { split; [apply perm_swap|]. split; [split; [reflexivity|discriminate]|]. split; [cbn; lia|].
    apply fo_next; [split; [reflexivity|discriminate]|cbn; lia|apply fo_end]. }
  split; [apply quietb_ok; vm_compute; reflexivity|]. split; [apply room_chordb_ok; vm_compute; reflexivity|].
  apply runsb_ok. vm_compute. reflexivity.
Qed.

(* the keys of a+b, not of the longer a+b+c, are struck and held *)
Definition ab : chord := mkChord [30; 48]%N (DKey 45 0).
Example C20_longer_example :
  hopeful ex20_k [D 48 10; D 30 40]%N /\ longest ex20_k [D 48 10; D 30 40]%N 0 ab []
  /\ exists kf, outcome ex20_k ([D 48 10; D 30 40] ++ [U 48 100; U 30 120])%N (Ok (kf, 0%Z))
       /\ rev (k_out kf) = [OKey 45 true; OKey 45 false]%N.
Proof.
  split; [apply (hopefulb_ok ex20_k ex20_times); vm_compute; reflexivity|]. split.
  - exists [D 48 10; D 30 40]%N. split; [reflexivity|]. split; [discriminate|]. split.
    + pose proof (matchb_ok ex20_k ex20_times [D 48 10; D 30 40]%N eq_refl ltac:(discriminate)) as M.
      assert (E : matchb ex20_k [D 48 10; D 30 40]%N = Some (0, 0)) by (vm_compute; reflexivity). rewrite E in M.
      destruct M as [ch [M1 M2]]. assert (E2 : nth_error (ly_chords (layer_of ex20_k 0)) 0 = Some ab) by (vm_compute; reflexivity).
      rewrite E2 in M1. injection M1 as <-. exact M2.
    + intros [|q1 r1] q2 E Hn; [congruence|discriminate].
  - apply runsb_ok. vm_compute. reflexivity.
Qed.

(* j+k is struck, c tapped and k released meanwhile; then j is released *)
Example C20_release_example : exists k3 d3 k4 d4 k5 d5,
  outcome ex20_k [D 37 10; D 36 40]%N (Ok (k3, d3)) /\ rev (k_out k3) = [OKey 44 true]%N
  /\ during anyc 0 36%N k3 k4 /\ outcome k3 [D 46 50; U 46 60; U 37 100]%N (Ok (k4, d4))
  /\ rev (k_out k4) = [OKey 44 true; OKey 46 true; OKey 46 false]%N
  /\ last_in_slot k4 0 36%N /\ first_slot k4 0 36%N /\ h_state (k_chord k4) = CsInactive /\ unchorded k4 (slot_code 0)
  /\ nothing_due k4 120 /\ outcome k4 [mkKev 36 false 120] (Ok (k5, d5))
  /\ rev (k_out k5) = [OKey 44 true; OKey 46 true; OKey 46 false; OKey 44 false]%N.
Proof.
  assert (H : okb (kbd_process_events 40 ex20_k [D 37 10; D 36 40]%N) (fun '(k3, d3) => outb [OKey 44 true]%N k3
    && okb (kbd_process_events 40 k3 [D 46 50; U 46 60; U 37 100]%N) (fun '(k4, d4) => outb [OKey 44 true; OKey 46 true; OKey 46 false]%N k4
    && match nth_error (k_achords k4) 0 with
       | Some a => ac_active a && existsb (N.eqb 36) (ch_keys (ac_chord a)) && forallb (fun y => N.eqb y 36 || N.eqb y 0) (ch_keys (ac_chord a))
       | None => false end && idleb k4 && unchordedb k4 (slot_code 0) && quietb k4 120
    && okb (kbd_process_events 40 k4 [mkKev 36 false 120]) (fun '(k5, d5) => outb [OKey 44 true; OKey 46 true; OKey 46 false; OKey 44 false]%N k5))) = true)
    by (vm_compute; reflexivity).
  apply okb_ok in H as [[k3 d3] [E3 H]]. apply andb_true_iff in H as [O3 H].
  apply okb_ok in H as [[k4 d4] [E4 H]]. rewrite !andb_true_iff in H. destruct H as [[[[[O4 S4] I4] U4] Q4] H].
  apply okb_ok in H as [[k5 d5] [E5 O5]].
  exists k3, d3, k4, d4, k5, d5. split; [eapply outcome_of; [exact E3|discriminate]|]. split; [now apply outb_ok|].
  split.
  { eapply du_events; [|exact E4|apply du_refl].
    repeat (apply Forall_cons; [split; [discriminate|intros [X Y]; discriminate]|]). apply Forall_nil. }
  split; [eapply outcome_of; [exact E4|discriminate]|]. split; [now apply outb_ok|].
  split.
  { destruct (nth_error _ _) as [a|] eqn:Ea; [|discriminate]. rewrite !andb_true_iff in S4. destruct S4 as [[S1 S2] S3].
    exists a. split; [exact Ea|]. split; [exact S1|]. split.
    - apply existsb_exists in S2 as [y [Y1 Y2]]. apply N.eqb_eq in Y2. now subst y.
    - intros y Hy. rewrite forallb_forall in S3. apply S3 in Hy. apply orb_true_iff in Hy as [Hy|Hy]; apply N.eqb_eq in Hy; auto. }
  split; [intros j a Hj; lia|]. split; [now apply idleb_ok|]. split; [now apply unchordedb_ok|]. split; [now apply quietb_ok|].
  split; [eapply outcome_of; [exact E5|discriminate]|now apply outb_ok].
Qed.

(* a time-out, a foreign key, an early release *)
Example C21_example :
  hopeful ex20_k [D 48 10; D 46 40]%N /\ none_complete ex20_k [D 48 10; D 46 40]%N
  /\ (exists kf, outcome ex20_k ([D 48 10; D 46 40] ++ [D 30 95])%N (Ok (kf, 50%Z)) /\ rev (k_out kf) = [OKey 48 true; OKey 46 true]%N)
  /\ ~ begun ex20_k ([D 48 10; D 46 40] ++ [D 32 50])%N /\ unfinished ex20_k ([D 48 10; D 46 40] ++ [D 32 50])%N
  /\ (exists kf, outcome ex20_k ([D 48 10; D 46 40] ++ [D 32 50])%N (Ok (kf, 10%Z))
        /\ rev (k_out kf) = [OKey 48 true; OKey 46 true; OKey 32 true]%N)
  /\ release (U 48 60) /\ loose ex20_k 48
  /\ (exists kf, outcome ex20_k ([D 48 10; D 46 40] ++ [U 48 60])%N (Ok (kf, 30%Z))
        /\ rev (k_out kf) = [OKey 48 true; OKey 46 true; OKey 48 false]%N).
Proof.
  split; [apply (hopefulb_ok ex20_k ex20_times); vm_compute; reflexivity|].
  split; [apply (none_completeb_ok ex20_k ex20_times); vm_compute; reflexivity|].
  split; [apply runsb_ok; vm_compute; reflexivity|].
  split.
  { pose proof (begunb_ok ex20_k ex20_times ([D 48 10; D 46 40] ++ [D 32 50])%N eq_refl ltac:(discriminate)) as B.
    assert (E : begunb ex20_k ([D 48 10; D 46 40] ++ [D 32 50])%N = false) by (vm_compute; reflexivity). now rewrite E in B. }
  split.
  { pose proof (matchb_ok ex20_k ex20_times ([D 48 10; D 46 40] ++ [D 32 50])%N eq_refl ltac:(discriminate)) as B.
    assert (E : matchb ex20_k ([D 48 10; D 46 40] ++ [D 32 50])%N = None) by (vm_compute; reflexivity). now rewrite E in B. }
  split; [apply runsb_ok; vm_compute; reflexivity|].
  split; [split; [reflexivity|discriminate]|]. split.
  { intros ac Hac Ha. assert (X : forallb (fun a => negb (ac_active a)) (k_achords ex20_k) = true) by (vm_compute; reflexivity).
    rewrite forallb_forall in X. apply X in Hac. rewrite Ha in Hac. discriminate Hac. }
  apply runsb_ok; vm_compute; reflexivity.
Qed.

(* a chord that has to be held for 100 ms: held long enough, a tapped meanwhile; then not *)
Definition ex21_text : str := bs "[global]
chord_hold_timeout = 100

[main]
a+b = x
j+k = z
".
Definition ex21 : config := cfg_of ex21_text.
Definition ex21_k : kbd := new_keyboard ex21 1.
Lemma ex21_times : timesb ex21_k.
Proof. exact (proj2 (reach_times anyc ex21 ex21_k (reach_init anyc ex21 1 ltac:(lia) Logic.I))). Qed.
Example C21_hold_example : config_parse ex21_text = Ok (Some ex21)
  /\ awaits_hold ex21_k [D 37 10; D 36 40]%N 0 jk [] 40 /\ Forall (beside ex21_k jk) [D 30 60; U 30 110]%N
  /\ (exists kf, outcome ex21_k ([D 37 10; D 36 40] ++ [D 30 60; U 30 110] ++ [U 36 150])%N (Ok (kf, 0%Z))
       /\ rev (k_out kf) = [OKey 44 true; OKey 30 true; OKey 30 false]%N)
  /\ exists kf, outcome ex21_k ([D 37 10; D 36 40] ++ [D 30 60; U 30 110] ++ [U 36 130])%N (Ok (kf, 10%Z))
       /\ rev (k_out kf) = [OKey 37 true; OKey 36 true; OKey 30 true; OKey 30 false; OKey 36 false]%N.
Proof.
  split; [apply parsesb_ok; vm_compute; reflexivity|]. split.
  { left. exists [D 37 10]%N, (D 36 40)%N. split; [reflexivity|].
    split; [apply (hopefulb_ok ex21_k ex21_times); vm_compute; reflexivity|]. split.
    { pose proof (begunb_ok ex21_k ex21_times ([D 37 10; D 36 40])%N eq_refl ltac:(discriminate)) as B.
      assert (E : begunb ex21_k ([D 37 10; D 36 40])%N = false) by (vm_compute; reflexivity). now rewrite E in B. }
    split.
    { pose proof (matchb_ok ex21_k ex21_times [D 37 10; D 36 40]%N eq_refl ltac:(discriminate)) as M.
      assert (E : matchb ex21_k [D 37 10; D 36 40]%N = Some (0, 1)) by (vm_compute; reflexivity). rewrite E in M.
      destruct M as [ch [M1 M2]]. assert (E2 : nth_error (ly_chords (layer_of ex21_k 0)) 1 = Some jk) by (vm_compute; reflexivity).
      rewrite E2 in M1. injection M1 as <-. exact M2. }
    split; [reflexivity|]. split; [vm_compute; reflexivity|reflexivity]. }
  split.
  { apply Forall_cons; [left; split; [reflexivity|discriminate]|]. apply Forall_cons; [|apply Forall_nil].
    right. split; [split; [reflexivity|discriminate]|]. split.
    - intros ac Hac Ha. assert (X : forallb (fun a => negb (ac_active a)) (k_achords ex21_k) = true) by (vm_compute; reflexivity).
      rewrite forallb_forall in X. apply X in Hac. rewrite Ha in Hac. discriminate Hac.
    - intros [X|[X|[]]]; discriminate X. }
  split; apply runsb_ok; vm_compute; reflexivity.
Qed.

(* ---- what does not hold -------------------------------------------------------------------- *)
(* The number of presses is counted, not the keys: with two keyboards, j struck on both
   makes j+k. *)
Theorem C20_twice_refuted : exists kf, config_parse ex20_text = Ok (Some ex20)
  /\ outcome ex20_k [D 36 10; D 36 30]%N (Ok (kf, 30%Z)) /\ rev (k_out kf) = [OKey 44 true]%N.
Proof.
  assert (H : runsb ex20_k [D 36 10; D 36 30]%N [OKey 44 true]%N 30 = true) by (vm_compute; reflexivity).
  apply runsb_ok in H as [kf H]. exists kf. split; [exact ex20_parses|exact H].
Qed.
(* Releasing a chord while the next one waits to be held: the release of its action is put
   off until the next one fires, but its slot is free at once, so the next one takes the
   same slot, under whose code a key is still held, and its press is ignored.  Of j+k and
   a+b, each held long enough, only j+k happens. *)
Theorem C20_reuse_refuted : exists kf, config_parse ex21_text = Ok (Some ex21)
  /\ outcome ex21_k [D 37 10; D 36 40; D 30 200; D 48 210; U 36 220; U 37 230; U 30 400; U 48 410]%N (Ok (kf, 0%Z))
  /\ rev (k_out kf) = [OKey 44 true; OKey 44 false]%N.
Proof.
  assert (H : runsb ex21_k [D 37 10; D 36 40; D 30 200; D 48 210; U 36 220; U 37 230; U 30 400; U 48 410]%N
    [OKey 44 true; OKey 44 false]%N 0 = true) by (vm_compute; reflexivity).
  apply runsb_ok in H as [kf H]. exists kf. split; [apply parsesb_ok; vm_compute; reflexivity|exact H].
Qed.
(* With chord_timeout = 0 the time-out of an attempt never comes: the timer set for it is
   dropped by the same call.  The key struck waits for the next event, however late. *)
Definition ex21z_text : str := bs "[global]
chord_timeout = 0

[main]
j+k = z
".
Definition ex21z : config := cfg_of ex21z_text.
Theorem C21_zero_refuted : exists k, config_parse ex21z_text = Ok (Some ex21z)
  /\ outcome (new_keyboard ex21z 1) [D 36 10]%N (Ok (k, 0%Z)) /\ k_out k = [] /\ k_timeouts k = []
  /\ h_state (k_chord k) = CsDisambiguation.
Proof.
  assert (H : okb (kbd_process_events 40 (new_keyboard ex21z 1) [D 36 10]%N) (fun '(k, d) => (d =? 0)%Z && Nat.eqb (length (k_out k)) 0
     && Nat.eqb (length (k_timeouts k)) 0 && match h_state (k_chord k) with CsDisambiguation => true | _ => false end) = true) by (vm_compute; reflexivity).
  apply okb_ok in H as [[k d] [E H]]. rewrite !andb_true_iff in H. destruct H as [[[H1 H2] H3] H4].
  apply Z.eqb_eq in H1. subst d. apply Nat.eqb_eq, length_zero_iff_nil in H2. apply Nat.eqb_eq, length_zero_iff_nil in H3.
  exists k. split; [apply parsesb_ok; vm_compute; reflexivity|]. split; [eapply outcome_of; [exact E|discriminate]|].
  split; [exact H2|]. split; [exact H3|]. destruct (h_state _); congruence.
Qed.

Definition C20_all := (C20_strike, C20_pressed, C20_rule, C20_longer, C20_held, C20_part, C20_release, C20_twice_refuted,
  C20_reuse_refuted).
Print Assumptions C20_all.
Definition C21_all := (C21_timeout, C21_foreign, C21_release, C21_hold, C21_zero_refuted).
Print Assumptions C21_all.
