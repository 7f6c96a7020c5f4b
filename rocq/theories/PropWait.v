(* C74: with keys decided later, too, the engine is the simple machine of SpecRef.v with one
   key that waits and events that are struck again (SpecWait.v). *)
From Verif Require Import Base Lib Keys Types MacroExec Config Kbd Hist ExTools ParseWf WfHist SpecMods SpecLookup LookupProofs SpecDefer PropDefer KeptProofs Outside
  SpecRef RefProofs RefSteps RefRun PropRef SpecWait WaitProofs.
From Coq Require Import String.
Local Open Scope nat_scope.
Local Open Scope list_scope.

(* For every sequence of calls there are turns of the machine, with the same events given
   and nothing left to be struck again, after which everything said, the keys down at the
   host, the layers on, the keys held with their actions and the key that waits with what
   was struck since are those of the engine. *)
Theorem C74_run :
  forall c clk evs k,
    general c -> (dawn c <= clk)%Z -> calls_of c clk evs k ->
    (forall e, In e evs -> physical (ev_code e) \/ ev_code e = 0%N) ->
    (forall l rest, given l ++ rest = evs -> List.length (m_shots (x_m (turns c l))) < 200) ->
    exists l, given l = evs /\ x_todo (turns c l) = []
      /\ k_out k = o_log (m_host (x_m (turns c l)))
      /\ (forall x, k_ks k x = o_down (m_host (x_m (turns c l))) x)
      /\ (forall i, l_active (k_ls k i) <> 0%N <-> lit (x_m (turns c l)) i = true)
      /\ (forall code d dl, code <> 0%N ->
            ((exists e, In e (k_cache k) /\ ce_code e = code /\ ce_d e = d /\ ce_dl e = dl) <-> In (code, (d, dl)) (m_held (x_m (turns c l)))))
      /\ match x_wait (turns c l) with
         | None => p_code (k_pend k) = 0%N
         | Some w => p_code (k_pend k) = w_code w /\ p_code (k_pend k) <> 0%N /\ p_queue (k_pend k) = w_queue w
         end.
Proof.
  intros c clk evs k Gc Hk Hc Ph L. destruct (wait_runs c Gc clk evs k Hk Hc Ph L) as (l & G & T & [(pe & H & O) _]).
  exists l. split; [exact G|]. split; [exact T|]. set (s := turns c l) in *. clearbody s.
  split; [now rewrite (proj1 H)|]. split; [intros x; now rewrite (proj1 H)|]. split; [intros i; symmetry; now apply (lit_on c pe idv)|]. split.
  - intros code d dl Hz. pose proof (r_used _ _ _ _ _ _ _ _ _ _ _ _ _ _ _ _ _ _ (proj2 H)) as U. split.
    + intros (e & E1 & E2 & E3 & E4). apply (Permutation.Permutation_in _ U). apply (used_In idv). exists e. subst. auto.
    + intros I. apply (Permutation.Permutation_in _ (Permutation.Permutation_sym U)) in I. apply (used_In idv) in I as (e & E1 & E2 & E3).
      injection E3 as -> -> ->. exists e. auto.
  - rewrite (r_pend _ _ _ _ _ _ _ _ _ _ _ _ _ _ _ _ _ _ (proj2 H)). destruct (x_wait s) as [w|]; cbn [okw] in O; [|apply O].
    destruct O as (-> & _ & [Hw _] & _). auto.
Qed.

(* Without oneshot keys no bound is needed. *)
Theorem C74_no_oneshots :
  forall c clk evs k,
    general c -> no_oneshots c -> (dawn c <= clk)%Z -> calls_of c clk evs k ->
    (forall e, In e evs -> physical (ev_code e) \/ ev_code e = 0%N) ->
    exists l, given l = evs /\ x_todo (turns c l) = [] /\ k_out k = o_log (m_host (x_m (turns c l))).
Proof.
  intros c clk evs k Gc Nc Hk Hc Ph. destruct (C74_run c clk evs k Gc Hk Hc Ph) as (l & G & T & E & _); [|exists l; auto].
  intros l rest _. rewrite shotless_turns by exact Nc. cbn. lia.
Qed.

Definition C74_all := (C74_run, C74_no_oneshots).
Print Assumptions C74_all.

(* ---- an example ------------------------------------------------------------------------ *)
Definition lateb (c : config) (d : desc) : bool :=
  match d with DOverloadT l _ _ | DOverloadT2 l _ _ => a_layerb c l | DTimeout _ _ _ => true | _ => false end.
Definition settledb (c : config) (d : desc) : bool := sureb c d || lateb c d.
Definition generalb (c : config) (d : desc) : bool :=
  match d with
  | DOverloadI a1 a2 _ => settledb c (nth a1 (c_descs c) DNone) && settledb c (nth a2 (c_descs c) DNone)
  | _ => settledb c d
  end.
Lemma settledb_ok c d : settledb c d = true -> settled_action c d.
Proof.
  unfold settledb. rewrite orb_true_iff. intros [H|H]; [left; now apply sureb_ok|right].
  destruct d; try discriminate H; cbn [lateb late_action] in *; [now apply a_layerb_ok|now apply a_layerb_ok|exact Logic.I].
Qed.
Lemma generalb_ok c d : generalb c d = true -> general_action c d.
Proof.
  destruct d; cbn [generalb general_action]; try exact (settledb_ok c _). rewrite andb_true_iff. intros [A B]. split; now apply settledb_ok.
Qed.
Lemma general_check text : parsesb text = true -> chordlessb (cfg_of text) = true -> cfg_allb (generalb (cfg_of text)) (cfg_of text) = true ->
  forallb (generalb (cfg_of text)) (c_descs (cfg_of text)) = true -> general (cfg_of text).
Proof.
  intros H H1 H2 H3. split; [now apply chordlessb_ok|]. split.
  - intros i code. destruct (cfg_allb_ok (general_action (cfg_of text)) (generalb (cfg_of text)) (cfg_of text) (cfg_of_inv _ H) (generalb_ok _) H2) as [A _]. apply A.
  - intros n. unfold action. destruct (Nat.lt_ge_cases n (List.length (c_descs (cfg_of text)))) as [Ln|Ln].
    + apply generalb_ok. rewrite forallb_forall in H3. apply H3. now apply nth_In.
    + rewrite nth_overflow by exact Ln. left. exact Logic.I.
Qed.

Definition ex74_text : str := bs "[main]
a = overloadt(nav, esc, 200)
s = overloadt2(nav, tab, 200)
d = timeout(x, 200, y)
f = overloadi(z, overloadt(nav, enter, 200), 100)
[nav]
j = down
".
Definition ex74 : config := cfg_of ex74_text.
(* a is tapped around j; j is tapped while s is held; d is held; f is tapped after a pause *)
Definition ex74_evs : list kev :=
  [D 30 0; D 36 50; U 36 80; U 30 100; D 31 1000; D 36 1050; U 36 1080; U 31 1100; D 32 2000; mkKev 0 false 2200; U 32 2300; D 33 3000; U 33 3050]%N.
Definition ex74_out : list oev :=
  [OKey 1 true; OKey 36 true; OKey 36 false; OKey 1 false; OLayer 6 true true; OKey 108 true; OKey 108 false; OLayer 6 false false;
   OKey 21 true; OKey 21 false; OKey 28 true; OKey 28 false]%N.
(* the queue is struck again after the fourth event, the seventh, and the last *)
Definition ex74_turns : list turn :=
  map Given (firstn 4 ex74_evs) ++ [Next; Next; Next] ++ map Given (firstn 3 (skipn 4 ex74_evs)) ++ [Next; Next] ++ map Given (skipn 7 ex74_evs) ++ [Next].
Lemma touches_ok evs : forallb (fun e => physicalb (ev_code e) || (ev_code e =? 0)%N) evs = true -> forall e, In e evs -> physical (ev_code e) \/ ev_code e = 0%N.
Proof.
  rewrite forallb_forall. intros H e He. specialize (H e He). apply orb_true_iff in H as [H|H]; [|right; now apply N.eqb_eq].
  apply (physicals_ok [e]); [cbn [forallb]; now rewrite H|now left].
Qed.
Definition shotb (d : desc) : bool := match d with DOneshot _ | DOneshotM _ _ => true | _ => false end.
Lemma shotb_ok d : negb (shotb d) = true -> ~ oneshot_action d.
Proof. intros H Ho. destruct d; try discriminate H; exact Ho. Qed.
Lemma no_shot_ok text : parsesb text = true -> cfg_allb (fun d => negb (shotb d)) (cfg_of text) = true ->
  forallb (fun d => negb (shotb d)) (c_descs (cfg_of text)) = true -> no_oneshots (cfg_of text).
Proof.
  intros H E1 E2. split.
  - intros i code. destruct (cfg_allb_ok (fun d => ~ oneshot_action d) _ (cfg_of text) (cfg_of_inv _ H) shotb_ok E1) as [A _]. apply A.
  - intros n. destruct (Nat.lt_ge_cases n (List.length (c_descs (cfg_of text)))) as [Ln|Ln].
    + apply shotb_ok. rewrite forallb_forall in E2. apply E2. now apply nth_In.
    + rewrite nth_overflow by exact Ln. intros [].
Qed.
Definition ends (c : config) (l : list turn) (o : list oev) : bool :=
  outb o (rev (o_log (m_host (x_m (turns c l))))) && match x_todo (turns c l) with [] => true | _ => false end.
Lemma ends_ok c l o : ends c l o = true -> rev (o_log (m_host (x_m (turns c l)))) = o /\ x_todo (turns c l) = [].
Proof.
  unfold ends. rewrite andb_true_iff. intros [X1 X2]. split; [symmetry; now apply outb_ok|]. destruct (x_todo (turns c l)); [reflexivity|discriminate X2].
Qed.
Example C74_example : config_parse ex74_text = Ok (Some ex74) /\ general ex74 /\ no_oneshots ex74
  /\ (forall e, In e ex74_evs -> physical (ev_code e) \/ ev_code e = 0%N)
  /\ (exists k, calls_of ex74 2 ex74_evs k /\ rev (k_out k) = ex74_out)
  /\ given ex74_turns = ex74_evs /\ rev (o_log (m_host (x_m (turns ex74 ex74_turns)))) = ex74_out /\ x_todo (turns ex74 ex74_turns) = [].
Proof.
  split; [apply parsesb_ok; vm_compute; reflexivity|].
  split; [apply general_check; vm_compute; reflexivity|]. split; [apply no_shot_ok; vm_compute; reflexivity|].
  split; [apply touches_ok; vm_compute; reflexivity|]. split; [apply says_ok; vm_compute; reflexivity|]. split; [reflexivity|].
  apply ends_ok. vm_compute. reflexivity.
Qed.
