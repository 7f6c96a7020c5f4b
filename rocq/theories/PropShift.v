(* C48: what comes out does not depend on when the session takes place. *)
From Coq Require Import String.
From Verif Require Import Base Lib Keys Types MacroExec Kbd Config Steps Hist SpecHist SpecWf Engine Wf WfEvents
  ParseWf WfHist ExTools TermProofs SpecTerm PropTerm ClassInv KeptProofs Times Retime Shift SpecShift.
Local Open Scope nat_scope.
Local Open Scope list_scope.
Local Notation length := List.length.

Lemma steady_calm c : wf_config c -> steady c -> calm_cfg c.
Proof.
  intros W [S1 S2 S3 S4].
  assert (G : forall nd nm nc x, ok_desc c nd nm nc x -> ~ uses_idle x -> calm x).
  { intros nd nm nc x H1 H2. unfold ok_desc, u16 in H1. destruct x; cbn [calm];
      first [exact Logic.I|lia|destruct (H2 (ex_intro _ _ (ex_intro _ _ (ex_intro _ _ eq_refl))))]. }
  assert (L : forall i, In (nth i (c_layers c) zero_layer) (c_layers c) \/ nth i (c_layers c) zero_layer = zero_layer).
  { intros i. destruct (nth_in_or_default i (c_layers c) zero_layer); auto. }
  split; [|exact S4]. split; [|split].
  - intros i x. destruct (L i) as [Hi|Hi]; [|rewrite Hi; exact Logic.I].
    eapply G; [apply (wl_keymap c _ (wf_layers c W _ Hi))|apply S1].
  - intros i ch Hc. destruct (L i) as [Hi|Hi]; [|rewrite Hi in Hc; destruct Hc].
    eapply G; [apply (wl_chord c _ (wf_layers c W _ Hi) ch Hc)|eapply S2; eauto].
  - intros x Hx. destruct (In_nth _ _ DNone Hx) as [i [Hi <-]]. eapply G; [apply (proj1 (wf_descs c W i Hi))|].
    apply S3. now apply nth_In.
Qed.

Section Proof.
Variable d : Z.
Definition Rr (r : res (kbd * Z)) : res (kbd * Z) := mapr (Rz d) r.
Lemma mv_later evs : Forall (evpos (pos d)) evs -> map (mv d) evs = map (later d) evs.
Proof.
  induction 1 as [|e l H Hl IH]; cbn [map]; [reflexivity|]. rewrite IH. f_equal. unfold mv, later. now rewrite fz_pos.
Qed.
Lemma outcome_R k evs r : livek d k -> Forall (evpos (pos d)) evs -> outcome k evs r ->
  outcome (R d k) (map (later d) evs) (Rr r).
Proof.
  intros L He [Hr [f0 H]]. split; [destruct r; [discriminate..|contradiction]|].
  exists f0. intros f Hf. rewrite <- mv_later by auto. destruct (sim_events d f k evs L He) as [-> _]. now rewrite H.
Qed.
Lemma outcome_live k evs k1 t : livek d k -> Forall (evpos (pos d)) evs -> outcome k evs (Ok (k1, t)) -> livek d k1.
Proof.
  intros L He [_ [f0 H]]. destruct (sim_events d f0 k evs L He) as [_ G]. apply (G (k1, t)). apply H. lia.
Qed.
Lemma R_eval k text : kbd_eval (R d k) text = mapr (fun r => (R d (fst r), snd r)) (kbd_eval k text).
Proof.
  unfold kbd_eval. destruct (str_eqb text _); [reflexivity|]. rewrite R_cfg.
  destruct (config_add_entry (k_cfg k) text) as [[c ok]| | |]; reflexivity.
Qed.
Lemma cfg_live k c : livek d k -> calm_cfg c -> livek d (set_k_cfg c k).
Proof.
  intros [[B1 [B2 [B3 [B4 [[B5 B6] B7]]]]] O] [C1 C2]. split; [|exact O].
  split; [exact B1|]. split; [exact B2|]. split; [exact B3|]. split; [exact B4|]. split; [|exact C2]. split; auto.
Qed.
Lemma session_R k calls out delays f : session steady k calls out delays f ->
  livek d k -> inv (k_cfg k) -> inv (k_orig k) -> Forall (on_the_clock d) calls ->
  session steady (R d k) (map (postpone d) calls) out delays f.
Proof.
  assert (P : forall evs, on_the_clock d (Batch evs) -> Forall (evpos (pos d)) evs).
  { intros evs H. unfold on_the_clock in H. eapply Forall_impl; [|exact H]. intros e [He1 He2]. split; lia. }
  assert (Eo : forall k, k_out (R d k) = k_out k) by reflexivity.
  induction 1 as [k|k evs k1 t rest out delays f H H1 IH|k evs r rest H Hn|k text k1 ok rest out delays f H HG H1 IH
    |k text r rest H Hn Hf|k t rest out delays f H1 IH|k x y rest out delays f H1 IH];
    intros L I1 I2 F; cbn [map postpone].
  - rewrite <- Eo. constructor.
  - inversion F as [|a b F1 F2]; subst. apply P in F1.
    assert (X : k_cfg k1 = k_cfg k /\ k_orig k1 = k_orig k).
    { destruct H as [_ [f0 H]]. specialize (H f0 (le_n _)). apply kbd_process_events_steps in H. now apply steps_cfg in H. }
    destruct X as [X1 X2]. eapply se_batch.
    + exact (outcome_R _ _ _ L F1 H).
    + apply IH; [eapply outcome_live; eauto|now rewrite X1|now rewrite X2|exact F2].
  - inversion F as [|a b F1 F2]; subst. apply P in F1. rewrite <- Eo.
    replace (fate_of r) with (fate_of (Rr r)) by (now destruct r). apply se_batch_fails.
    + exact (outcome_R _ _ _ L F1 H).
    + intros x Hx. destruct r as [y| | |]; try discriminate. now apply (Hn y).
  - inversion F as [|a b F1 F2]; subst.
    assert (X : exists c, k1 = set_k_cfg c k /\ inv c).
    { unfold kbd_eval in H. destruct (str_eqb text _).
      - apply Ok_inj, pair_equal_spec in H as [<- _]. eauto.
      - bstep H r E. destruct r as [c1 ok1]. apply Ok_inj, pair_equal_spec in H as [<- _].
        exists c1. split; auto. exact (config_add_entry_ok _ _ _ _ I1 E). }
    destruct X as [c [-> Ic]]. cbn [k_cfg set_k_cfg] in HG.
    eapply se_bind; [rewrite R_eval, H; reflexivity|exact HG|].
    apply IH; [|exact Ic|exact I2|exact F2]. apply cfg_live; auto. apply steady_calm; [apply Ic|exact HG].
  - rewrite <- Eo. replace (fate_of r) with (fate_of (mapr (fun r => (R d (fst r), snd r)) r)) by (now destruct r).
    apply se_bind_fails; [now rewrite R_eval, H| |].
    + intros x Hx. destruct r as [y| | |]; try discriminate. now apply (Hn y).
    + intros Hx. destruct r; try discriminate. contradiction.
  - inversion F; subst. apply se_others. apply IH; auto.
  - inversion F; subst. apply se_motion. apply IH; auto.
Qed.
End Proof.

(* For every configuration, every session and every shift of the clock: the same
   output, the same delays, the same end. *)
Theorem C48_shift : forall text c clk d calls out delays f,
  config_parse text = Ok (Some c) -> steady c -> Forall (on_the_clock d) calls ->
  session steady (new_keyboard c clk) calls out delays f ->
  session steady (new_keyboard c clk) (map (postpone d) calls) out delays f.
Proof.
  intros text c clk d calls out delays f Hc Hs Ht H. pose proof (config_parse_inv _ _ Hc) as I.
  change (new_keyboard c clk) with (R d (new_keyboard c clk)) at 1. apply session_R; auto.
  apply new_livet. apply steady_calm; [apply I|exact Hs].
Qed.

(* A session with an undecided key, a oneshot layer, a broken and a completed chord,
   a repeating macro, a rebind, and mouse motion, three hours later. *)
Definition ex48_text : str := bs "[global]
oneshot_timeout = 300
[main]
a = overloadt2(nav, esc, 200)
b = oneshot(shift)
c = macro2(40, 30, macro(x y))
d = overload(nav, d)
j+k = enter
[nav]
j = left
".
Definition ex48 : config := cfg_of ex48_text.
Definition ex48_calls : list call :=
  [Batch [D 30 5; D 36 20]; Batch [T 60]; Batch [U 36 80; U 30 90; D 48 100; U 48 120];
   Batch [T 400]; Bind (bs "nav.j = right"); Batch [D 46 500; T 540; T 570; U 46 580];
   Motion 3 4; Batch [D 36 600; D 37 610; U 36 640; U 37 650]; Others 90; Batch [D 32 700; D 36 720]; Batch [T 800; U 36 820; U 32 900]].
Fixpoint playb (fuel : nat) (k : kbd) (calls : list call) (ds : list Z) : option kbd :=
  match calls with
  | [] => match ds with [] => Some k | _ => None end
  | Batch evs :: rest =>
      match kbd_process_events fuel k evs, ds with
      | Ok (k1, t), x :: ds' => if (t =? x)%Z then playb fuel k1 rest ds' else None
      | _, _ => None
      end
  | Bind text :: rest => match kbd_eval k text with Ok (k1, _) => playb fuel k1 rest ds | _ => None end
  | Others t :: rest => playb fuel (set_k_clock t k) rest ds
  | Motion x y :: rest => playb fuel (set_k_scroll (mkScroll x y (s_sens (k_scroll k)) (s_active (k_scroll k))) k) rest ds
  end.
Definition calmb (x : desc) : bool := match x with DOverloadI _ _ _ => false | _ => true end.
Definition setb (c : config) : bool :=
  (0 <=? c_macro_timeout c)%Z && (0 <=? c_macro_repeat c)%Z && (0 <=? c_oneshot_timeout c)%Z
  && (0 <=? c_chord_interkey c)%Z && (0 <=? c_chord_hold c)%Z.
Definition steadyb (c : config) : bool := cfg_allb calmb c && setb c.
Lemma steadyb_ok c : inv c -> steadyb c = true -> steady c.
Proof.
  intros I H. apply andb_true_iff in H as [H1 H2].
  assert (A : cfg_all (fun x => ~ uses_idle x) c).
  { eapply cfg_allb_ok; [exact I| |exact H1]. intros x Hx [a [b [t ->]]]. discriminate. }
  destruct A as [A1 [A2 A3]]. constructor; auto.
  unfold setb in H2. rewrite !andb_true_iff, !Z.leb_le in H2. tauto.
Qed.
Fixpoint bindsb (fuel : nat) (k : kbd) (calls : list call) : bool :=
  match calls with
  | [] => true
  | Batch evs :: rest => match kbd_process_events fuel k evs with Ok (k1, _) => bindsb fuel k1 rest | _ => false end
  | Bind text :: rest =>
      match kbd_eval k text with Ok (k1, _) => steadyb (k_cfg k1) && bindsb fuel k1 rest | _ => false end
  | Others t :: rest => bindsb fuel (set_k_clock t k) rest
  | Motion x y :: rest => bindsb fuel (set_k_scroll (mkScroll x y (s_sens (k_scroll k)) (s_active (k_scroll k))) k) rest
  end.
Lemma playb_ok fuel : forall calls k ds k', inv (k_cfg k) -> inv (k_orig k) -> playb fuel k calls ds = Some k' ->
  bindsb fuel k calls = true -> session steady k calls (k_out k') ds Fine.
Proof.
  induction calls as [|cl rest IH]; intros k ds k' I1 I2 H Hb.
  - cbn [playb] in H. destruct ds; [|discriminate]. injection H as <-. constructor.
  - destruct cl as [evs|text|t|x y]; cbn [playb bindsb] in H, Hb.
    + destruct (kbd_process_events fuel k evs) as [[k1 t]| | |] eqn:E; try discriminate.
      destruct ds as [|y ds]; [discriminate|]. destruct (Z.eqb_spec t y) as [->|]; [|discriminate].
      pose proof (steps_cfg _ _ (kbd_process_events_steps _ _ _ _ _ E)) as [X1 X2].
      apply se_batch with k1.
      * split; [discriminate|]. exists fuel. intros g L. rewrite <- E. unfold kbd_process_events in *.
        apply fin_loop_more; auto. rewrite E. discriminate.
      * apply IH; auto; [now rewrite X1|now rewrite X2].
    + destruct (kbd_eval k text) as [[k1 ok]| | |] eqn:E; try discriminate.
      apply andb_true_iff in Hb as [B1 B2].
      assert (X : inv (k_cfg k1) /\ inv (k_orig k1)).
      { unfold kbd_eval in E. destruct (str_eqb text _).
        - apply Ok_inj, pair_equal_spec in E as [<- _]. auto.
        - bstep E r Er. destruct r as [c1 ok1]. apply Ok_inj, pair_equal_spec in E as [<- _].
          split; [exact (config_add_entry_ok _ _ _ _ I1 Er)|exact I2]. }
      destruct X as [X1 X2]. eapply se_bind; [exact E|now apply steadyb_ok|now apply IH].
    + apply se_others. now apply IH.
    + apply se_motion. now apply IH.
Qed.
Definition clockb (d : Z) (cl : call) : bool :=
  match cl with Batch evs => forallb (fun e => (1 <=? ev_time e)%Z && (1 <=? ev_time e + d)%Z) evs | _ => true end.
Lemma clockb_ok d calls : forallb (clockb d) calls = true -> Forall (on_the_clock d) calls.
Proof.
  rewrite forallb_forall. intros H. apply Forall_forall. intros [evs| | |] Hc; try exact Logic.I.
  apply H in Hc. cbn [clockb] in Hc. rewrite forallb_forall in Hc. apply Forall_forall. intros e He.
  apply Hc in He. apply andb_true_iff in He. rewrite !Z.leb_le in He. exact He.
Qed.
Definition ex48_out : list oev :=
  [OLayer 6 true true; OKey 105 true; OKey 105 false; OLayer 6 false false; OLayer 2 true true; OKey 42 true;
   OLayer 2 false false; OKey 42 false; OKey 45 true; OKey 45 false; OKey 21 true; OKey 21 false; OKey 45 true;
   OKey 45 false; OKey 21 true; OKey 21 false; OKey 45 true; OKey 45 false; OKey 21 true; OKey 21 false;
   OKey 28 true; OKey 28 false; OLayer 6 true true; OKey 106 true; OKey 106 false; OLayer 6 false false].
Definition ex48_delays : list Z := [50; 10; 85; 20; 20; 0; 50; 0]%Z.
Definition playsb (fuel : nat) (k : kbd) (calls : list call) (ds : list Z) (o : list oev) : bool :=
  match playb fuel k calls ds with Some k' => outb o k' | None => false end.
Lemma playsb_ok fuel k calls ds o : inv (k_cfg k) -> inv (k_orig k) -> playsb fuel k calls ds o = true ->
  bindsb fuel k calls = true -> session steady k calls (rev o) ds Fine.
Proof.
  unfold playsb. intros I1 I2 H Hb. destruct (playb fuel k calls ds) as [k'|] eqn:E; [|discriminate].
  apply outb_ok in H. rewrite <- H, rev_involutive. eapply playb_ok; eauto.
Qed.
Example C48_example :
  config_parse ex48_text = Ok (Some ex48) /\ steady ex48 /\ Forall (on_the_clock 10800000) ex48_calls
  /\ session steady (new_keyboard ex48 1) ex48_calls (rev ex48_out) ex48_delays Fine
  /\ session steady (new_keyboard ex48 1) (map (postpone 10800000) ex48_calls) (rev ex48_out) ex48_delays Fine.
Proof.
  assert (Hc : config_parse ex48_text = Ok (Some ex48)) by (apply parsesb_ok; vm_compute; reflexivity).
  pose proof (config_parse_inv _ _ Hc) as I.
  assert (Hs : steady ex48) by (apply steadyb_ok; [exact I|vm_compute; reflexivity]).
  assert (Ht : Forall (on_the_clock 10800000) ex48_calls) by (apply clockb_ok; vm_compute; reflexivity).
  assert (H : session steady (new_keyboard ex48 1) ex48_calls (rev ex48_out) ex48_delays Fine).
  { apply (playsb_ok 30); [exact I|exact I|vm_compute; reflexivity|vm_compute; reflexivity]. }
  split; [exact Hc|]. split; [exact Hs|]. split; [exact Ht|]. split; [exact H|].
  exact (C48_shift _ _ _ _ _ _ _ _ Hc Hs Ht H).
Qed.

(* ---- the two conditions are needed ----------------------------------------------------- *)
Lemma one_batch G f k evs o t :
  match kbd_process_events f k evs with Ok (k', t') => outb o k' && (t =? t')%Z | _ => false end = true ->
  session G k [Batch evs] (rev o) [t] Fine.
Proof.
  intros H. apply outcome_ex in H as [k' [H <-]]. rewrite rev_involutive.
  eapply se_batch; [exact H|constructor].
Qed.
(* overloadi: the idle time of a new keyboard is measured from time 0. *)
Definition ex48i_text : str := bs "[main]
a = overloadi(x, y, 100)
".
Theorem C48_idle_refuted : exists text c calls d out out' delays,
  config_parse text = Ok (Some c) /\ Forall (on_the_clock d) calls
  /\ session (fun _ => True) (new_keyboard c 1) calls out delays Fine
  /\ session (fun _ => True) (new_keyboard c 1) (map (postpone d) calls) out' delays Fine
  /\ out <> out'.
Proof.
  exists ex48i_text, (cfg_of ex48i_text), [Batch [D 30 50; U 30 60]], 1000%Z,
    (rev [OKey 45 true; OKey 45 false]), (rev [OKey 21 true; OKey 21 false]), [0%Z].
  split; [apply parsesb_ok; vm_compute; reflexivity|]. split; [apply clockb_ok; vm_compute; reflexivity|].
  split; [apply (one_batch _ 10); vm_compute; reflexivity|]. split; [|discriminate].
  apply (one_batch _ 10 _ [D 30 1050; U 30 1060]); vm_compute; reflexivity.
Qed.
(* A negative oneshot_timeout (the setting is read by atoi) can hit the value 0, which
   means that there is no time-out. *)
Definition ex48n_text : str := bs "[global]
oneshot_timeout = -60
[main]
a = oneshot(shift)
".
Theorem C48_negative_refuted : exists text c calls d out out' delays,
  config_parse text = Ok (Some c) /\ Forall (on_the_clock d) calls
  /\ session (fun _ => True) (new_keyboard c 1) calls out delays Fine
  /\ session (fun _ => True) (new_keyboard c 1) (map (postpone d) calls) out' delays Fine
  /\ out <> out'.
Proof.
  exists ex48n_text, (cfg_of ex48n_text), [Batch [D 30 50; U 30 60; T 70]], 1000%Z,
    (rev [OLayer 2 true true; OKey 42 true]),
    (rev [OLayer 2 true true; OKey 42 true; OLayer 2 false false; OKey 42 false]), [0%Z].
  split; [apply parsesb_ok; vm_compute; reflexivity|]. split; [apply clockb_ok; vm_compute; reflexivity|].
  split; [apply (one_batch _ 10); vm_compute; reflexivity|]. split; [|discriminate].
  apply (one_batch _ 10 _ [D 30 1050; U 30 1060; T 1070]); vm_compute; reflexivity.
Qed.
Definition C48_all := (C48_shift, C48_idle_refuted, C48_negative_refuted).
Print Assumptions C48_all.
