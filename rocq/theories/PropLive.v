(* C80: the engine is the machine of SpecFull.v while bindings change, too. *)
From Verif Require Import Base Lib Keys Types MacroExec Config Kbd Hist ExTools SpecWf ParseWf WfHist SpecMods SpecHist SpecLookup LookupProofs SpecDefer PropDefer KeptProofs Outside
  SpecRef RefProofs RefSteps RefRun PropRef SpecWait WaitProofs PropWait SpecFull FullProofs PropFull PropClass SpecLive LiveProofs.
From Coq Require Import String.
Local Open Scope nat_scope.
Local Open Scope list_scope.
Local Notation length := List.length.

(* For every sequence of events and bindings there are turns of the machine, with the same
   events given and the same bindings made in the same order and nothing left to be struck
   again, after which everything said, the keys down at the host, the layers on, the keys held
   with their actions, the key that waits and the chords held are those of the engine.  All a
   binding does to the machine is that from there on another configuration is consulted: what
   is held, waits, is locked or on by oneshot stays as it is. *)
Definition same_as (k : kbd) (s : full) : Prop :=
  k_out k = o_log (m_host (g_m s))
  /\ (forall x, k_ks k x = o_down (m_host (g_m s)) x)
  /\ (forall i, l_active (k_ls k i) <> 0%N <-> lit (g_m s) i = true)
  /\ (forall code d dl, code <> 0%N ->
        ((exists e, In e (k_cache k) /\ ce_code e = code /\ ce_d e = d /\ ce_dl e = dl) <-> In (code, (d, dl)) (m_held (g_m s))))
  /\ match g_wait s with
     | None => p_code (k_pend k) = 0%N
     | Some w => p_code (k_pend k) = w_code w /\ p_code (k_pend k) <> 0%N /\ p_queue (k_pend k) = w_queue w
     end
  /\ Forall2 (fun p ac => (ac_active ac = true <-> q_keys p <> []) /\ filter (fun x => negb (x =? 0)%N) (ch_keys (ac_chord ac)) = q_keys p
                /\ ch_d (ac_chord ac) = q_do p /\ ac_layer ac = q_layer p) (g_places s) (k_achords k).
Lemma V_same c s k : V c s k -> same_as k s.
Proof.
  intros (p & H & O & _).
  split; [now rewrite (proj1 H)|]. split; [intros x; now rewrite (proj1 H)|]. split; [intros i; symmetry; eapply (lit_on c); exact H|]. split; [|split].
  - intros code d dl Hz. pose proof (r_used _ _ _ _ _ _ _ _ _ _ _ _ _ _ _ _ _ _ (proj2 H)) as U. split.
    + intros (e & E1 & E2 & E3 & E4). apply (Permutation.Permutation_in _ U). apply (used_In idv). exists e. subst. auto.
    + intros I. apply (Permutation.Permutation_in _ (Permutation.Permutation_sym U)) in I. apply (used_In idv) in I as (e & E1 & E2 & E3).
      injection E3 as -> -> ->. exists e. auto.
  - rewrite (r_pend _ _ _ _ _ _ _ _ _ _ _ _ _ _ _ _ _ _ (proj2 H)). cbn [f_pend]. destruct (g_wait s) as [w|]; cbn [okv] in O; [|apply O].
    destruct O as (-> & _ & Hw & _). auto.
  - apply S_placed in H as [_ F]. clear - F. induction F as [|q ac ps acs (H1 & H2 & H3 & H4) F IH]; constructor; [|exact IH]. split; [|auto].
    rewrite H1. unfold vacant. destruct (q_keys q); cbn [negb]; split; intros X; congruence.
Qed.
Theorem C80_run :
  forall text c clk ds k,
    config_parse text = Ok (Some c) -> (dawn c <= clk)%Z ->
    session (fun x => unmixed x /\ swapping x = swapping c) fits True c clk ds k ->
    (forall l rest, deeds l ++ rest = ds -> length (m_shots (g_m (snd (course c l)))) < 200) ->
    exists l s, course c l = (k_cfg k, s) /\ deeds l = ds /\ g_todo s = [] /\ same_as k s.
Proof.
  intros text c clk ds k Hp Hk Hs L. pose proof (config_parse_inv _ _ Hp) as I0.
  destruct (live_runs _ fits True c clk I0 (fun x H => H) (or_introl (fun x k H => H)) Hk ds k Hs L) as (l & D & Ef & T & Vk & _).
  exists l, (snd (course c l)). split; [rewrite <- Ef; apply surjective_pairing|]. split; [exact D|]. split; [exact T|exact (V_same _ _ _ Vk)].
Qed.
(* As long as nothing is reset, nothing is asked of what is remembered. *)
Theorem C80_no_reset :
  forall text c clk ds k,
    config_parse text = Ok (Some c) -> (dawn c <= clk)%Z ->
    session (fun x => unmixed x /\ swapping x = swapping c) (fun _ _ => True) False c clk ds k ->
    (forall l rest, deeds l ++ rest = ds -> length (m_shots (g_m (snd (course c l)))) < 200) ->
    exists l s, course c l = (k_cfg k, s) /\ deeds l = ds /\ g_todo s = [] /\ same_as k s.
Proof.
  intros text c clk ds k Hp Hk Hs L. pose proof (config_parse_inv _ _ Hp) as I0.
  destruct (live_runs _ (fun _ _ => True) False c clk I0 (fun x H => H) (or_intror (fun H => H)) Hk ds k Hs L) as (l & D & Ef & T & Vk & _).
  exists l, (snd (course c l)). split; [rewrite <- Ef; apply surjective_pairing|]. split; [exact D|]. split; [exact T|exact (V_same _ _ _ Vk)].
Qed.

(* Without oneshot keys no bound is needed. *)
Definition shot_free (c : config) : Prop := no_oneshots c /\ forall i ch, In ch (ly_chords (the c i)) -> ~ oneshot_action (ch_d ch).
Lemma unshot_act c i s : shot_free c -> unshot s -> unshot (act_all c s i).
Proof.
  intros [Nc Nk] IH. unfold act_all. destruct i as [e| |t]; destruct (g_todo s) as [|[e0|e0|] r]; try exact IH; try (apply (unshot_feed c Nc Nk); exact IH).
  - exact (unshot_try Calm s IH Logic.I).
  - destruct (_ <=? _)%Z; [now apply (unshot_feed c Nc Nk)|exact IH].
Qed.
Lemma unshot_course c l : shot_free c -> (forall x, In (Binding x) (deeds l) -> shot_free x) -> shot_free (fst (course c l)) /\ unshot (snd (course c l)).
Proof.
  intros Hc. induction l as [|m l IH] using rev_ind; intros Hx.
  { split; [exact Hc|]. exact (unshot_turns c (proj1 Hc) (proj2 Hc) []). }
  rewrite deeds_app in Hx. destruct IH as [I1 I2]. { intros x I. apply Hx. apply in_or_app. now left. }
  rewrite course_app. cbn [fold_left]. destruct (course c l) as [x s]. destruct m as [i|c']; cbn [moved fst snd] in *.
  - split; [exact I1|now apply unshot_act].
  - split; [|exact I2]. apply Hx. apply in_or_app. right. now left.
Qed.
Lemma session_good G F R c clk ds k : session G F R c clk ds k -> G c /\ forall x, In (Binding x) ds -> G x.
Proof.
  intros H. induction H as [Gc|ds k fuel e k' t H [IH0 IH] E|ds k exp k' ok H [IH0 IH] Hs Hr E Gk Fk|ds k k' ok H [IH0 IH] Rr Hs E|ds k k' H IH Ou]; try exact IH.
  - split; [exact Gc|intros x []].
  - split; [exact IH0|]. intros x I. apply in_app_or in I as [I|[I|[]]]; [now apply IH|discriminate I].
  - split; [exact IH0|]. intros x I. apply in_app_or in I as [I|[I|[]]]; [now apply IH|injection I as <-; exact Gk].
  - split; [exact IH0|]. intros x I. apply in_app_or in I as [I|[I|[]]]; [now apply IH|injection I as <-; exact IH0].
Qed.
Lemma session_mono (G G' : config -> Prop) F R c clk ds k : (forall x, G x -> G' x) -> session G F R c clk ds k -> session G' F R c clk ds k.
Proof.
  intros M H. induction H as [Gc|ds k fuel e k' t H IH E|ds k exp k' ok H IH Hs Hr E Gk Fk|ds k k' ok H IH Rr Hs E|ds k k' H IH Ou].
  - apply se_start. auto.
  - eapply se_call; eauto.
  - eapply se_bind; eauto.
  - eapply se_reset; eauto.
  - eapply se_outside; eauto.
Qed.
Theorem C80_no_oneshots :
  forall text c clk ds k,
    config_parse text = Ok (Some c) -> (dawn c <= clk)%Z ->
    session (fun x => unmixed x /\ swapping x = swapping c /\ shot_free x) fits True c clk ds k ->
    exists l s, course c l = (k_cfg k, s) /\ deeds l = ds /\ g_todo s = [] /\ same_as k s.
Proof.
  intros text c clk ds k Hp Hk Hs. destruct (session_good _ _ _ _ _ _ _ Hs) as [G0 G1].
  destruct (C80_run text c clk ds k Hp Hk) as (l & s & A1 & A2 & A3 & A4).
  - apply (session_mono (fun x => unmixed x /\ swapping x = swapping c /\ shot_free x)); [tauto|exact Hs].
  - intros l rest E. destruct (unshot_course c l) as [_ [[-> _] _]]; [apply G0| |cbn; lia]. intros x I. apply G1. rewrite <- E. apply in_or_app. now left.
  - exists l, s. auto.
Qed.
Definition C80_all := (C80_run, C80_no_reset, C80_no_oneshots).
Print Assumptions C80_all.

(* ---- an example ------------------------------------------------------------------------ *)
Inductive stroke := Stk (e : kev) | Bnd (exp : str) | Rst.
Definition calmb (k : kbd) : bool := match h_state (k_chord k) with CsDisambiguation | CsHold => false | _ => true end.
Definition fitb (c : config) (d : desc) : bool :=
  let lateb d := match d with DOverloadT _ _ _ | DOverloadT2 _ _ _ | DTimeout _ _ _ => true | _ => false end in
  let idleb d := match d with DOverloadI _ _ _ => true | _ => false end in
  match d with
  | DOverload _ a => negb (lateb (action c a)) && negb (idleb (action c a))
  | DOverloadI a b _ => negb (idleb (action c a)) && negb (idleb (action c b))
  | _ => true
  end.
Definition fitsb (c : config) (k : kbd) : bool :=
  forallb (fun e => fitb c (ce_d e)) (k_cache k) && forallb (fun ac => fitb c (ch_d (ac_chord ac))) (k_achords k) && fitb c (p_a1 (k_pend k)) && fitb c (p_a2 (k_pend k)).
Definition niceb (sw : bool) (c : config) : bool :=
  filledb c && cfg_allb (generalb c) c && forallb (generalb c) (c_descs c) && Bool.eqb (swapping c) sw
  && cfg_allb (fun d => negb (shotb d)) c && forallb (fun d => negb (shotb d)) (c_descs c).
Fixpoint play (c : config) (k : kbd) (l : list stroke) : option kbd :=
  match l with
  | [] => Some k
  | Stk e :: l => match process_event 30 k (ev_code e) (ev_pressed e) (ev_time e) with Ok (k', _) => play c k' l | _ => None end
  | Bnd exp :: l => if calmb k && negb (str_eqb exp (bs "reset")) then
      match kbd_eval k exp with Ok (k', _) => if niceb (swapping c) (k_cfg k') && fitsb (k_cfg k') k then play c k' l else None | _ => None end else None
  | Rst :: l => if calmb k then match kbd_eval k (bs "reset") with Ok (k', _) => play c k' l | _ => None end else None
  end.
Lemma calmb_ok k : calmb k = true -> ~ striking k.
Proof. unfold calmb, striking. intros H [E|E]; rewrite E in H; discriminate. Qed.
Lemma fitb_ok c d : fitb c d = true -> fitting c d.
Proof.
  destruct d; cbn [fitb fitting]; try (intros; exact Logic.I); rewrite andb_true_iff; intros [A B].
  - split; [destruct (action c a); try discriminate A; intros []|destruct (action c a); try discriminate B; intros []].
  - split; [destruct (action c a1); try discriminate A; intros []|destruct (action c a2); try discriminate B; intros []].
Qed.
Lemma fitsb_ok c k : fitsb c k = true -> fits c k.
Proof.
  unfold fitsb. rewrite !andb_true_iff, !forallb_forall. intros [[[A B] X] Y] d Hd. apply (fitb_ok c d).
  destruct Hd as [(e & I1 & _ & <-)|[(ac & I & <-)|(_ & [<-|<-])]]; auto.
Qed.
Definition nice (sw : bool) (c : config) : Prop := unmixed c /\ swapping c = sw /\ shot_free c.
Lemma niceb_ok sw c : inv c -> niceb sw c = true -> nice sw c.
Proof.
  intros I. unfold niceb. rewrite !andb_true_iff. intros [[[[[A1 A2] A3] A4] A5] A6]. split; [|split].
  - apply (class_ok c (proj1 I)). now apply entire_of.
  - now apply Bool.eqb_prop.
  - split; [|now apply chord_shot_of]. split.
    + destruct (cfg_allb_ok (fun d => ~ oneshot_action d) _ c I shotb_ok A5) as (B & _). exact B.
    + intros n. destruct (nth_in_or_default n (c_descs c) DNone) as [J|J]; [|rewrite J; intros []]. rewrite forallb_forall in A6. exact (shotb_ok _ (A6 _ J)).
Qed.
Lemma play_ok c clk : inv c -> forall l ds k k', session (nice (swapping c)) fits True c clk ds k -> inv (k_cfg k) -> k_orig k = c -> play c k l = Some k' ->
  exists ds', session (nice (swapping c)) fits True c clk ds' k'.
Proof.
  intros I0. induction l as [|x l IH]; intros ds k k' Hs I Ho H; cbn [play] in H; [injection H as <-; eauto|].
  destruct x as [e|exp|].
  - destruct (process_event 30 k (ev_code e) (ev_pressed e) (ev_time e)) as [[k1 t]| | |] eqn:E; try discriminate H.
    destruct (event_cfg _ _ _ _ _ _ _ E) as [X1 X2]. eapply IH; [eapply se_call; [exact Hs|exact E]| | |exact H]; congruence.
  - destruct (calmb k) eqn:Ek; [|discriminate H]. destruct (str_eqb exp (bs "reset")) eqn:Er; [discriminate H|]. cbn [andb negb] in H.
    destruct (kbd_eval k exp) as [[k1 ok]| | |] eqn:E; try discriminate H.
    assert (Hn : exp <> bs "reset") by (intros X; rewrite X in Er; vm_compute in Er; discriminate Er).
    destruct (bind_follows _ _ _ _ I E Hn) as (E1 & E2 & E3). destruct (niceb _ (k_cfg k1)) eqn:En; [|discriminate H]. destruct (fitsb _ k) eqn:Ef; [|discriminate H]. cbn [andb] in H.
    eapply IH; [eapply se_bind; [exact Hs|exact (calmb_ok _ Ek)|exact Hn|exact E|now apply niceb_ok|now apply fitsb_ok]|exact E3| |exact H]. rewrite E1. exact Ho.
  - destruct (calmb k) eqn:Ek; [|discriminate H].
    destruct (kbd_eval k (bs "reset")) as [[k1 ok]| | |] eqn:E; try discriminate H. pose proof E as E'.
    unfold kbd_eval in E'. change (str_eqb (bs "reset") (bs "reset")) with true in E'. cbn iota in E'. apply Ok_inj in E'. injection E' as E1 _.
    eapply IH; [eapply se_reset; [exact Hs|exact Logic.I|exact (calmb_ok _ Ek)|exact E]| | |exact H]; subst k1; cbn [k_cfg k_orig set_k_cfg]; [rewrite Ho; exact I0|exact Ho].
Qed.
Lemma played c clk l o : inv c -> niceb (swapping c) c = true ->
  match play c (new_keyboard c clk) l with Some k => outb o (rev (k_out k)) | None => false end = true ->
  exists ds k, session (nice (swapping c)) fits True c clk ds k /\ play c (new_keyboard c clk) l = Some k /\ rev (k_out k) = o.
Proof.
  intros I N H. destruct (play c (new_keyboard c clk) l) as [k|] eqn:E; [|discriminate H].
  destruct (play_ok c clk I l [] _ k (se_start _ _ _ c clk (niceb_ok _ _ I N)) I eq_refl E) as (ds & Hs). exists ds, k. split; [exact Hs|]. split; [reflexivity|]. symmetry. now apply outb_ok.
Qed.
Definition ex80_text : str := bs "[main]
a = overloadt(nav, esc, 200)
s = layer(nav)
[nav]
j = down
".
(* j is down, gets a new binding, is released, pressed; a waits and gets a new binding; a layer that
   is held gets a chord; everything goes back, and the chord is none any more *)
Definition ex80_strokes : list stroke :=
  [Stk (D 36 0); Bnd (bs "j = x"); Stk (U 36 100); Stk (D 36 200); Stk (U 36 210);
   Stk (D 30 300); Bnd (bs "a = y"); Stk (U 30 350); Stk (D 30 400); Stk (U 30 410);
   Stk (D 31 500); Bnd (bs "nav.j+k = overload(nav, tab)"); Stk (D 36 510); Stk (D 37 520); Stk (U 36 530); Stk (U 37 540);
   Rst; Stk (D 36 600); Stk (D 37 610); Stk (U 36 620); Stk (U 37 630); Stk (U 31 640); Stk (D 36 700); Stk (U 36 710)]%N.
Definition ex80_out : list oev :=
  [OKey 36 true; OKey 36 false; OKey 45 true; OKey 45 false; OKey 1 true; OKey 1 false; OKey 21 true; OKey 21 false;
   OLayer 6 true true; OLayer 6 true true; OLayer 6 false true; OKey 15 true; OKey 15 false;
   OKey 108 true; OKey 37 true; OKey 108 false; OKey 37 false; OLayer 6 false false; OKey 36 true; OKey 36 false]%N.
Definition ex80 : config := cfg_of ex80_text.
Example C80_example : config_parse ex80_text = Ok (Some ex80) /\ (dawn ex80 <= 1)%Z
  /\ exists ds k, session (fun x => unmixed x /\ swapping x = swapping ex80 /\ shot_free x) fits True ex80 1 ds k
       /\ play ex80 (new_keyboard ex80 1) ex80_strokes = Some k /\ rev (k_out k) = ex80_out
       /\ exists l s, course ex80 l = (k_cfg k, s) /\ deeds l = ds /\ rev (o_log (m_host (g_m s))) = ex80_out.
Proof.
  assert (P : config_parse ex80_text = Ok (Some ex80)) by (apply parsesb_ok; vm_compute; reflexivity). split; [exact P|].
  assert (Dn : (dawn ex80 <= 1)%Z) by (vm_compute; discriminate). split; [exact Dn|].
  destruct (played ex80 1 ex80_strokes ex80_out (config_parse_inv _ _ P)) as (ds & k & H1 & H2 & H3); [vm_compute; reflexivity|vm_compute; reflexivity|].
  exists ds, k. split; [exact H1|]. split; [exact H2|]. split; [exact H3|].
  destruct (C80_no_oneshots ex80_text ex80 1 ds k P Dn H1) as (l & s & A1 & A2 & _ & A4 & _). exists l, s. split; [exact A1|]. split; [exact A2|]. now rewrite <- A4.
Qed.

(* What a held key does is not settled at its press once the configuration is reset: the tap of
   a, bound to tab, is q since something else was bound after the reset. *)
Definition ex80r_text : str := bs "[main]
c = overload(nav, x)
[nav]
j = down
".
Definition tapped (c : config) : option (kbd * kbd * kbd * kbd * kbd) :=
  match kbd_eval (new_keyboard c 1) (bs "a = overload(nav, tab)") with Ok (k1, true) =>
  match process_event 10 k1 30%N true 0%Z with Ok (k2, _) =>
  match kbd_eval k2 (bs "reset") with Ok (k3, true) =>
  match kbd_eval k3 (bs "b = overload(nav, q)") with Ok (k4, true) =>
  match process_event 10 k4 30%N false 100%Z with Ok (k5, _) => Some (k1, k2, k3, k4, k5)
  | _ => None end | _ => None end | _ => None end | _ => None end | _ => None end.
Lemma tapped_ok c k1 k2 k3 k4 k5 : tapped c = Some (k1, k2, k3, k4, k5) ->
  kbd_eval (new_keyboard c 1) (bs "a = overload(nav, tab)") = Ok (k1, true)
  /\ (exists t, process_event 10 k1 30%N true 0%Z = Ok (k2, t))
  /\ kbd_eval k2 (bs "reset") = Ok (k3, true)
  /\ kbd_eval k3 (bs "b = overload(nav, q)") = Ok (k4, true)
  /\ (exists t, process_event 10 k4 30%N false 100%Z = Ok (k5, t)).
Proof.
  unfold tapped. destruct (kbd_eval (new_keyboard c 1) _) as [[x1 []]| | |] eqn:E1; try discriminate.
  destruct (process_event 10 x1 30%N true 0%Z) as [[x2 t2]| | |] eqn:E2; try discriminate.
  destruct (kbd_eval x2 _) as [[x3 []]| | |] eqn:E3; try discriminate.
  destruct (kbd_eval x3 _) as [[x4 []]| | |] eqn:E4; try discriminate.
  destruct (process_event 10 x4 30%N false 100%Z) as [[x5 t5]| | |] eqn:E5; try discriminate.
  intros H. injection H as <- <- <- <- <-. repeat split; eauto.
Qed.
Theorem C80_reset_refuted : exists text c k1 k2 k3 k4 k5,
  config_parse text = Ok (Some c)
  /\ kbd_eval (new_keyboard c 1) (bs "a = overload(nav, tab)") = Ok (k1, true)
  /\ (exists t, process_event 10 k1 30%N true 0%Z = Ok (k2, t))
  /\ kbd_eval k2 (bs "reset") = Ok (k3, true)
  /\ kbd_eval k3 (bs "b = overload(nav, q)") = Ok (k4, true)
  /\ (exists t, process_event 10 k4 30%N false 100%Z = Ok (k5, t))
  /\ rev (k_out k5) = [OLayer 6 true true; OLayer 6 false false; OKey 16 true; OKey 16 false]%N.
Proof.
  exists ex80r_text, (cfg_of ex80r_text).
  assert (X : match tapped (cfg_of ex80r_text) with
              | Some (_, k5) => outb [OLayer 6 true true; OLayer 6 false false; OKey 16 true; OKey 16 false]%N (rev (k_out k5)) | None => false end = true) by (vm_compute; reflexivity).
  destruct (tapped (cfg_of ex80r_text)) as [[[[[k1 k2] k3] k4] k5]|] eqn:E; [|discriminate X]. apply tapped_ok in E as (E1 & E2 & E3 & E4 & E5).
  exists k1, k2, k3, k4, k5. split; [apply parsesb_ok; vm_compute; reflexivity|]. split; [exact E1|]. split; [exact E2|]. split; [exact E3|]. split; [exact E4|]. split; [exact E5|].
  symmetry. now apply outb_ok.
Qed.
Print Assumptions C80_reset_refuted.
