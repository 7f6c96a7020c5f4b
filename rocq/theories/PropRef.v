(* C69: for configurations without chords and keys decided later, and without toggle if
   there is swap, the engine is the simple machine of SpecRef.v. *)
From Verif Require Import Base Lib Keys Types MacroExec Config Kbd Hist ExTools ParseWf WfHist SpecMods SpecLookup LookupProofs SpecDefer PropDefer KeptProofs Outside
  SpecRef RefProofs RefSteps RefRun.
From Coq Require Import String.
Local Open Scope nat_scope.
Local Open Scope list_scope.

(* Everything written, said or run, in order; the layers on; the keys down at the host; and
   what is remembered of held keys are those of the machine. *)
Theorem C69_run :
  forall c clk evs k,
    common c -> (dawn c <= clk)%Z -> calls_of c clk evs k ->
    (forall e, In e evs -> physical (ev_code e) \/ ev_code e = 0%N) ->
    (forall n, List.length (m_shots (run c (firstn n evs))) < 200) ->
    k_out k = o_log (m_host (run c evs))
    /\ (forall x, k_ks k x = o_down (m_host (run c evs)) x)
    /\ (forall i, l_active (k_ls k i) <> 0%N <-> lit (run c evs) i = true)
    /\ (forall code d dl, code <> 0%N ->
          ((exists e, In e (k_cache k) /\ ce_code e = code /\ ce_d e = d /\ ce_dl e = dl) <-> In (code, (d, dl)) (m_held (run c evs)))).
Proof.
  intros c clk evs k Cm Hk Hc Ph L. pose proof (calls_sim c clk evs k Cm Hk Hc Ph L) as H.
  split; [now rewrite (proj1 H)|]. split; [intros x; now rewrite (proj1 H)|]. split; [intros i; symmetry; now apply (lit_on c (unchorded_fringe (k_pend (new_keyboard c clk))) idv)|].
  intros code d dl Hz. pose proof (r_used _ _ _ _ _ _ _ _ _ _ _ _ _ _ _ _ _ _ (proj2 H)) as U. split.
  - intros (e & E1 & E2 & E3 & E4). apply (Permutation.Permutation_in _ U). apply (used_In idv). exists e. subst. auto.
  - intros I. apply (Permutation.Permutation_in _ (Permutation.Permutation_sym U)) in I. apply (used_In idv) in I as (e & E1 & E2 & E3).
    injection E3 as -> -> ->. exists e. auto.
Qed.

(* Without oneshot keys there is nothing to count: no bound is needed. *)
Theorem C69_no_oneshots :
  forall c clk evs k,
    common c -> no_oneshots c -> (dawn c <= clk)%Z -> calls_of c clk evs k ->
    (forall e, In e evs -> physical (ev_code e) \/ ev_code e = 0%N) ->
    k_out k = o_log (m_host (run c evs)).
Proof.
  intros c clk evs k Cm Nc Hk Hc Ph. apply (C69_run c clk evs k Cm Hk Hc Ph). intros n. rewrite shotless_run by exact Nc. cbn. lia.
Qed.

(* Events in batches are calls for the same keys, with time passing in between. *)
Theorem C69_batches :
  forall c clk evs k, batches_of c clk evs k -> exists all, calls_of c clk all k /\ keys_among all = keys_among evs.
Proof. intros c clk evs k. apply batches_calls. Qed.

Definition C69_all := (C69_run, C69_no_oneshots, C69_batches).
Print Assumptions C69_all.

(* ---- an example ------------------------------------------------------------------------ *)
Definition a_layerb (c : config) (l : nat) : bool :=
  Nat.ltb l (List.length (c_layers c)) && match ly_type (the c l) with LLayout => false | _ => true end.
Definition plainb (c : config) (d : desc) : bool :=
  match d with
  | DNone | DKey _ _ | DMacro _ | DMacro2 _ _ _ | DClear | DClearM _ | DCommand _ | DScroll _ | DScrollToggle _ => true
  | DToggle l | DToggleM l _ => negb (Nat.eqb l 0) && a_layerb c l && negb (swapping c)
  | DSwap l | DSwapM l _ => a_layerb c l && swapping c
  | DLayout l => Nat.eqb l 0 || (Nat.ltb l (List.length (c_layers c)) && is_layout (ly_type (the c l)))
  | _ => false
  end.
Fixpoint tapb (c : config) (n : nat) (d : desc) : bool :=
  match d with
  | DLayer l | DLayerM l _ | DOneshot l | DOneshotM l _ => a_layerb c l
  | DOverload l a => a_layerb c l && match n with O => false | S n => tapb c n (nth a (c_descs c) DNone) end
  | _ => plainb c d
  end.
Definition sureb (c : config) (d : desc) : bool :=
  match d with
  | DLayer l | DLayerM l _ | DOneshot l | DOneshotM l _ => a_layerb c l
  | DOverload l a => a_layerb c l && tapb c (List.length (c_descs c)) (nth a (c_descs c) DNone)
  | _ => plainb c d
  end.
Definition commonb (c : config) (d : desc) : bool :=
  match d with
  | DOverloadI a1 a2 _ => sureb c (nth a1 (c_descs c) DNone) && sureb c (nth a2 (c_descs c) DNone)
  | _ => sureb c d
  end.
Lemma a_layerb_ok c l : a_layerb c l = true -> a_layer c l.
Proof.
  unfold a_layerb, a_layer. rewrite andb_true_iff, Nat.ltb_lt. intros [A B]. split; [exact A|]. destruct (ly_type (the c l)); discriminate.
Qed.
Lemma plainb_ok c d : plainb c d = true -> plain_action c d.
Proof.
  destruct d; cbn [plainb plain_action]; try discriminate; auto.
  - rewrite andb_true_iff. intros [A B]. split; [now apply a_layerb_ok|exact B].
  - rewrite andb_true_iff. intros [A B]. split; [now apply a_layerb_ok|exact B].
  - rewrite orb_true_iff, andb_true_iff, Nat.eqb_eq, Nat.ltb_lt. intros [H|[A B]]; [now left|right]. split; [exact A|].
    destruct (ly_type (the c l)); [discriminate|reflexivity|discriminate].
  - rewrite !andb_true_iff, !negb_true_iff, Nat.eqb_neq. intros [[A B] C]. split; [split; [exact A|now apply a_layerb_ok]|exact C].
  - rewrite !andb_true_iff, !negb_true_iff, Nat.eqb_neq. intros [[A B] C]. split; [split; [exact A|now apply a_layerb_ok]|exact C].
Qed.
Lemma tapb_ok c : forall n d, tapb c n d = true -> tap_action c n d.
Proof.
  induction n as [|n IH]; intros d; destruct d; cbn [tapb tap_action]; try exact (plainb_ok c _); try apply a_layerb_ok; try discriminate;
    rewrite andb_true_iff; intros [A B]; (split; [now apply a_layerb_ok|]); [discriminate|now apply IH].
Qed.
Lemma sureb_ok c d : sureb c d = true -> sure_action c d.
Proof.
  destruct d; cbn [sureb sure_action]; try exact (plainb_ok c _); try apply a_layerb_ok; try discriminate.
  rewrite andb_true_iff. intros [A B]. split; [now apply a_layerb_ok|now apply tapb_ok].
Qed.
Lemma commonb_ok c d : commonb c d = true -> common_action c d.
Proof.
  destruct d; cbn [commonb common_action]; try exact (sureb_ok c _). rewrite andb_true_iff. intros [A B]. split; now apply sureb_ok.
Qed.
Lemma common_check text : parsesb text = true -> chordlessb (cfg_of text) = true -> cfg_allb (commonb (cfg_of text)) (cfg_of text) = true -> common (cfg_of text).
Proof.
  intros H H1 H2. split; [now apply chordlessb_ok|]. intros i code.
  destruct (cfg_allb_ok (common_action (cfg_of text)) (commonb (cfg_of text)) (cfg_of text) (cfg_of_inv _ H) (commonb_ok _) H2) as [A _]. apply A.
Qed.
Fixpoint calls (k : kbd) (evs : list kev) : option kbd :=
  match evs with
  | [] => Some k
  | e :: r => match process_event 4 k (ev_code e) (ev_pressed e) (ev_time e) with Ok (k', _) => calls k' r | _ => None end
  end.
Lemma calls_ok c clk : forall evs pre k k', calls_of c clk pre k -> calls k evs = Some k' -> calls_of c clk (pre ++ evs) k'.
Proof.
  induction evs as [|e evs IH]; intros pre k k' H E; cbn [calls] in E.
  - injection E as <-. now rewrite app_nil_r.
  - destruct (process_event 4 k (ev_code e) (ev_pressed e) (ev_time e)) as [[k1 t]| | |] eqn:P; try discriminate.
    change (e :: evs) with ([e] ++ evs). rewrite app_assoc. eapply IH; [|exact E]. eapply co_call; [exact H|exact P].
Qed.
Definition shots_small (c : config) (evs : list kev) : bool :=
  forallb (fun n => Nat.ltb (List.length (m_shots (run c (firstn n evs)))) 200) (seq 0 (S (List.length evs))).
Lemma shots_small_ok c evs : shots_small c evs = true -> forall n, List.length (m_shots (run c (firstn n evs))) < 200.
Proof.
  unfold shots_small. rewrite forallb_forall. intros H n. destruct (Nat.le_gt_cases n (List.length evs)) as [L|L].
  - apply Nat.ltb_lt. apply H. apply in_seq. lia.
  - rewrite firstn_all2 by lia. specialize (H (List.length evs)). rewrite firstn_all in H. apply Nat.ltb_lt. apply H. apply in_seq. lia.
Qed.
Definition says (c : config) (clk : Z) (evs : list kev) (o : list oev) : bool :=
  match calls (new_keyboard c clk) evs with Some k => outb o (rev (k_out k)) | None => false end.

Definition ex69_text : str := bs "[main]
a = layer(nav)
s = oneshot(control)
d = toggle(num)
f = overload(nav, esc)
q = macro(h i)
w = setlayout(dv)
e = overloadi(x, layer(nav), 100)
[nav]
j = down
[num]
j = 1
[nav+num]
j = 2
[dv:layout]
x = y
".
Definition ex69 : config := cfg_of ex69_text.
Definition ex69_evs : list kev :=
  [D 30 0; D 36 10; U 36 20; D 32 30; D 36 40; U 30 50; U 36 60; D 36 70; U 36 80; U 32 90;
   D 33 100; U 33 120; D 31 200; U 31 210; D 45 220; U 45 230; D 17 300; D 45 310; U 45 320; D 16 400; U 16 410;
   D 18 600; D 36 610; U 36 620; U 18 630; D 18 650; U 18 660]%N.
Definition ex69_out : list oev :=
  [OLayer 6 true true; OKey 108 true; OKey 108 false; OLayer 7 true true; OKey 3 true; OLayer 6 false true;
   OKey 3 false; OKey 2 true; OKey 2 false; OLayer 6 true true; OLayer 6 false true; OKey 1 true; OKey 1 false;
   OLayer 1 true true; OKey 29 true; OKey 45 true; OLayer 1 false true; OKey 45 false; OKey 29 false;
   OLayer 7 false false; OLayer 9 true false; OKey 21 true; OKey 21 false; OKey 35 true; OKey 35 false; OKey 23 true; OKey 23 false;
   OLayer 6 true true; OKey 108 true; OKey 108 false; OLayer 6 false false; OKey 45 true; OKey 45 false]%N.
Lemma says_ok c clk evs o : says c clk evs o = true -> exists k, calls_of c clk evs k /\ rev (k_out k) = o.
Proof.
  unfold says. intros H. destruct (calls (new_keyboard c clk) evs) as [k|] eqn:E; [|discriminate]. exists k.
  split; [apply (calls_ok c clk evs [] _ k (co_start c clk) E)|]. symmetry. now apply outb_ok.
Qed.
Lemma physicals_ok evs : forallb (fun e => physicalb (ev_code e)) evs = true -> forall e, In e evs -> physical (ev_code e) \/ ev_code e = 0%N.
Proof.
  rewrite forallb_forall. intros H e He. left. specialize (H e He). unfold physicalb, is_chord_code in H. rewrite andb_true_iff, !negb_true_iff, N.eqb_neq in H.
  destruct H as [A B]. split; [exact A|]. intros [L1 L2]. apply N.leb_le in L1, L2. rewrite L1, L2 in B. discriminate.
Qed.
(* layers nested and combined, a toggle, a tap of an overload, a oneshot, a layout, a macro, an idle overload both ways *)
Example C69_example : config_parse ex69_text = Ok (Some ex69) /\ common ex69
  /\ (forall e, In e ex69_evs -> physical (ev_code e) \/ ev_code e = 0%N)
  /\ (forall n, List.length (m_shots (run ex69 (firstn n ex69_evs))) < 200)
  /\ exists k, calls_of ex69 2 ex69_evs k /\ rev (k_out k) = ex69_out /\ rev (o_log (m_host (run ex69 ex69_evs))) = ex69_out.
Proof.
  split; [apply parsesb_ok; vm_compute; reflexivity|].
  assert (Cm : common ex69) by (apply common_check; vm_compute; reflexivity). split; [exact Cm|].
  assert (Ph : forall e, In e ex69_evs -> physical (ev_code e) \/ ev_code e = 0%N) by (apply physicals_ok; vm_compute; reflexivity). split; [exact Ph|].
  assert (L : forall n, List.length (m_shots (run ex69 (firstn n ex69_evs))) < 200) by (apply shots_small_ok; vm_compute; reflexivity). split; [exact L|].
  destruct (says_ok ex69 2 ex69_evs ex69_out) as (k & H1 & H2); [vm_compute; reflexivity|]. exists k. split; [exact H1|]. split; [exact H2|].
  destruct (C69_run ex69 2 ex69_evs k Cm (Z.le_refl 2) H1 Ph L) as [E _]. now rewrite <- E.
Qed.

(* swap: of a layer held by two keys (the second takes the last seat but one, so it gives it
   up first), of a oneshot layer, with a macro; the release of the macro key *)
Definition ex69s_text : str := bs "[main]
a = layer(nav)
s = overload(nav, esc)
d = oneshot(nav)
f = layer(control)
[nav]
j = down
k = swap(num)
l = swapm(num, b)
[num]
j = 1
".
Definition ex69s : config := cfg_of ex69s_text.
Definition ex69s_evs : list kev :=
  [D 30 0; D 31 10; D 36 20; U 36 30; D 37 40; D 36 50; U 36 60; U 37 70; U 30 80; D 36 90; U 36 100; U 31 110;
   D 32 200; U 32 210; D 37 220; U 37 230; D 36 240; U 36 250; D 30 300; D 38 310; U 38 320; D 36 330; U 36 340; U 30 350; D 36 360; U 36 370]%N.
Definition ex69s_out : list oev :=
  [OLayer 6 true true; OLayer 6 true true; OKey 108 true; OKey 108 false; OLayer 6 false true; OLayer 7 true true; OKey 2 true; OKey 2 false;
   OLayer 6 false true; OKey 2 true; OKey 2 false; OLayer 7 false false;
   OLayer 6 true true; OLayer 6 false false; OLayer 7 true true; OKey 2 true; OLayer 7 false false; OKey 2 false;
   OLayer 6 true true; OLayer 6 false false; OLayer 7 true true; OKey 48 true; OKey 48 false; OKey 2 true; OKey 2 false; OLayer 7 false false;
   OKey 36 true; OKey 36 false]%N.
Example C69_swap_example : config_parse ex69s_text = Ok (Some ex69s) /\ common ex69s /\ swapping ex69s = true
  /\ (forall e, In e ex69s_evs -> physical (ev_code e) \/ ev_code e = 0%N)
  /\ (forall n, List.length (m_shots (run ex69s (firstn n ex69s_evs))) < 200)
  /\ exists k, calls_of ex69s 1 ex69s_evs k /\ rev (k_out k) = ex69s_out /\ rev (o_log (m_host (run ex69s ex69s_evs))) = ex69s_out.
Proof.
  split; [apply parsesb_ok; vm_compute; reflexivity|].
  assert (Cm : common ex69s) by (apply common_check; vm_compute; reflexivity). split; [exact Cm|]. split; [vm_compute; reflexivity|].
  assert (Ph : forall e, In e ex69s_evs -> physical (ev_code e) \/ ev_code e = 0%N) by (apply physicals_ok; vm_compute; reflexivity). split; [exact Ph|].
  assert (L : forall n, List.length (m_shots (run ex69s (firstn n ex69s_evs))) < 200) by (apply shots_small_ok; vm_compute; reflexivity). split; [exact L|].
  destruct (says_ok ex69s 1 ex69s_evs ex69s_out) as (k & H1 & H2); [vm_compute; reflexivity|]. exists k. split; [exact H1|]. split; [exact H2|].
  assert (Dn : (dawn ex69s <= 1)%Z) by (vm_compute; discriminate).
  destruct (C69_run ex69s 1 ex69s_evs k Cm Dn H1 Ph L) as [E _]. now rewrite <- E.
Qed.

(* the tap of an overload: a oneshot layer, a layer, another overload (with the same or with
   another layer), a toggle *)
Definition ex69t_text : str := bs "[main]
a = overload(nav, oneshot(control))
s = overload(nav, layer(shift))
d = overload(nav, overload(num, overload(nav, b)))
f = overload(nav, oneshotm(num, c))
q = overload(num, toggle(nav))
[nav]
j = down
[num]
j = 1
".
Definition ex69t : config := cfg_of ex69t_text.
Definition ex69t_evs : list kev :=
  [D 30 0; U 30 10; D 36 20; U 36 30; D 31 40; U 31 50; D 32 60; U 32 70; D 33 80; U 33 90; D 36 100; U 36 110; D 36 120; U 36 130;
   D 16 140; U 16 150; D 36 160; U 36 170; D 30 180; D 36 190; U 36 200; U 30 210]%N.
Definition ex69t_out : list oev :=
  [OLayer 6 true true; OLayer 6 false false; OLayer 1 true true; OKey 29 true; OKey 36 true; OLayer 1 false false; OKey 36 false; OKey 29 false;
   OLayer 6 true true; OLayer 6 false false; OLayer 2 true true; OKey 42 true; OLayer 2 false false; OKey 42 false;
   OLayer 6 true true; OLayer 6 false false; OLayer 7 true true; OLayer 7 false false; OLayer 6 true true; OLayer 6 false false; OKey 48 true; OKey 48 false;
   OLayer 6 true true; OLayer 6 false false; OKey 46 true; OKey 46 false; OLayer 7 true true; OKey 2 true; OLayer 7 false false; OKey 2 false; OKey 36 true; OKey 36 false;
   OLayer 7 true true; OLayer 7 false false; OLayer 6 true true; OKey 108 true; OKey 108 false;
   OLayer 6 true true; OKey 108 true; OKey 108 false; OLayer 6 false true]%N.
Example C69_tap_example : config_parse ex69t_text = Ok (Some ex69t) /\ common ex69t
  /\ (forall e, In e ex69t_evs -> physical (ev_code e) \/ ev_code e = 0%N)
  /\ (forall n, List.length (m_shots (run ex69t (firstn n ex69t_evs))) < 200)
  /\ exists k, calls_of ex69t 1 ex69t_evs k /\ rev (k_out k) = ex69t_out /\ rev (o_log (m_host (run ex69t ex69t_evs))) = ex69t_out.
Proof.
  split; [apply parsesb_ok; vm_compute; reflexivity|].
  assert (Cm : common ex69t) by (apply common_check; vm_compute; reflexivity). split; [exact Cm|].
  assert (Ph : forall e, In e ex69t_evs -> physical (ev_code e) \/ ev_code e = 0%N) by (apply physicals_ok; vm_compute; reflexivity). split; [exact Ph|].
  assert (L : forall n, List.length (m_shots (run ex69t (firstn n ex69t_evs))) < 200) by (apply shots_small_ok; vm_compute; reflexivity). split; [exact L|].
  destruct (says_ok ex69t 1 ex69t_evs ex69t_out) as (k & H1 & H2); [vm_compute; reflexivity|]. exists k. split; [exact H1|]. split; [exact H2|].
  assert (Dn : (dawn ex69t <= 1)%Z) by (vm_compute; discriminate).
  destruct (C69_run ex69t 1 ex69t_evs k Cm Dn H1 Ph L) as [E _]. now rewrite <- E.
Qed.
