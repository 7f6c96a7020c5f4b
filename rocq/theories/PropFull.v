(* C77: with chords, too, the engine is a simple machine: that of SpecWait.v where keys that may
   become a chord are held back, and chords are keys (SpecFull.v). *)
From Verif Require Import Base Lib Keys Types MacroExec Config Kbd Hist ExTools ParseWf WfHist SpecMods SpecLookup LookupProofs SpecDefer PropDefer KeptProofs Outside
  SpecRef RefProofs RefSteps RefRun PropRef SpecWait WaitProofs PropWait SpecFull FullProofs.
From Coq Require Import String.
Local Open Scope nat_scope.
Local Open Scope list_scope.

(* For every sequence of calls there are turns of the machine, with the same events given
   and nothing left to be struck again, after which everything said, the keys down at the
   host, the layers on, the keys held with their actions, the key that waits with what was
   struck since, the keys held back for a chord and the chords held are those of the engine.
   Nothing is asked of the codes of the events. *)
Theorem C77_run :
  forall c clk evs k,
    entire c -> (dawn c <= clk)%Z -> calls_of c clk evs k ->
    (forall l rest, given l ++ rest = evs -> List.length (m_shots (g_m (turns_all c l))) < 200) ->
    exists l, given l = evs /\ g_todo (turns_all c l) = []
      /\ k_out k = o_log (m_host (g_m (turns_all c l)))
      /\ (forall x, k_ks k x = o_down (m_host (g_m (turns_all c l))) x)
      /\ (forall i, l_active (k_ls k i) <> 0%N <-> lit (g_m (turns_all c l)) i = true)
      /\ (forall code d dl, code <> 0%N ->
            ((exists e, In e (k_cache k) /\ ce_code e = code /\ ce_d e = d /\ ce_dl e = dl) <-> In (code, (d, dl)) (m_held (g_m (turns_all c l)))))
      /\ match g_wait (turns_all c l) with
         | None => p_code (k_pend k) = 0%N
         | Some w => p_code (k_pend k) = w_code w /\ p_code (k_pend k) <> 0%N /\ p_queue (k_pend k) = w_queue w
         end
      /\ match g_try (turns_all c l) with
         | Calm => h_state (k_chord k) = CsInactive
         | Replaying => False
         | Open a => h_state (k_chord k) = CsDisambiguation /\ h_queue (k_chord k) = a_queue a /\ h_last (k_chord k) = a_last a
         | Kept a => h_state (k_chord k) = CsHold /\ h_queue (k_chord k) = a_queue a /\ h_last (k_chord k) = a_last a
         end
      /\ Forall2 (fun p ac => (ac_active ac = true <-> q_keys p <> []) /\ filter (fun x => negb (x =? 0)%N) (ch_keys (ac_chord ac)) = q_keys p
                    /\ ch_d (ac_chord ac) = q_do p /\ ac_layer ac = q_layer p) (g_places (turns_all c l)) (k_achords k).
Proof.
  intros c clk evs k Gc Hk Hc L. destruct (full_runs c Gc clk evs k Hk Hc L) as (l & G & T & (p & H & O & _)).
  exists l. split; [exact G|]. split; [exact T|]. pose proof (over_turns c l) as Ov. rewrite T in Ov. set (s := turns_all c l) in *. clearbody s.
  split; [now rewrite (proj1 H)|]. split; [intros x; now rewrite (proj1 H)|]. split; [intros i; symmetry; eapply (lit_on c); exact H|]. split; [|split; [|split]].
  - intros code d dl Hz. pose proof (r_used _ _ _ _ _ _ _ _ _ _ _ _ _ _ _ _ _ _ (proj2 H)) as U. split.
    + intros (e & E1 & E2 & E3 & E4). apply (Permutation.Permutation_in _ U). apply (used_In idv). exists e. subst. auto.
    + intros I. apply (Permutation.Permutation_in _ (Permutation.Permutation_sym U)) in I. apply (used_In idv) in I as (e & E1 & E2 & E3).
      injection E3 as -> -> ->. exists e. auto.
  - rewrite (r_pend _ _ _ _ _ _ _ _ _ _ _ _ _ _ _ _ _ _ (proj2 H)). cbn [f_pend]. destruct (g_wait s) as [w|]; cbn [okv] in O; [|apply O].
    destruct O as (-> & _ & Hw & _). auto.
  - apply S_placed in H as [Tr _]. destruct (g_try s) as [| |a|a]; cbn [tried] in Tr.
    + exact Tr.
    + exact (Ov eq_refl).
    + destruct Tr as (X & X1 & X2 & _). auto.
    + destruct Tr as (X & (X1 & X2 & _) & _). auto.
  - apply S_placed in H as [_ F]. clear - F. induction F as [|q ac ps acs (H1 & H2 & H3 & H4) F IH]; constructor; [|exact IH]. split; [|auto].
    rewrite H1. unfold vacant. destruct (q_keys q); cbn [negb]; split; intros X; congruence.
Qed.

(* Without oneshot keys no bound is needed. *)
Theorem C77_no_oneshots :
  forall c clk evs k,
    entire c -> no_oneshots c -> (forall i ch, In ch (ly_chords (the c i)) -> ~ oneshot_action (ch_d ch)) -> (dawn c <= clk)%Z -> calls_of c clk evs k ->
    exists l, given l = evs /\ g_todo (turns_all c l) = [] /\ k_out k = o_log (m_host (g_m (turns_all c l))).
Proof.
  intros c clk evs k Gc Nc Nk Hk Hc. destruct (C77_run c clk evs k Gc Hk Hc) as (l & G & T & E & _); [|exists l; auto].
  intros l rest _. destruct (unshot_turns c Nc Nk l) as [[-> _] _]. cbn. lia.
Qed.

Definition C77_all := (C77_run, C77_no_oneshots).
Print Assumptions C77_all.

(* ---- an example ------------------------------------------------------------------------ *)
Definition filledb (c : config) : bool := forallb (fun l => forallb (fun ch => forallb (fun x => negb (x =? 0)%N) (ch_keys ch)) (ly_chords l)) (c_layers c).
Lemma the_chord c i ch : In ch (ly_chords (the c i)) -> In (the c i) (c_layers c).
Proof.
  intros H. unfold the in *. destruct (nth_in_or_default i (c_layers c) zero_layer) as [I|E]; [exact I|]. rewrite E in H. destruct H.
Qed.
Lemma filledb_ok c : filledb c = true -> forall i ch x, In ch (ly_chords (the c i)) -> In x (ch_keys ch) -> x <> 0%N.
Proof.
  unfold filledb. rewrite forallb_forall. intros H i ch x Hc Hx E. specialize (H _ (the_chord _ _ _ Hc)). rewrite forallb_forall in H.
  specialize (H _ Hc). rewrite forallb_forall in H. specialize (H x Hx). subst x. discriminate.
Qed.
Lemma entire_of c : inv c -> filledb c = true -> cfg_allb (generalb c) c = true -> forallb (generalb c) (c_descs c) = true -> entire c.
Proof.
  intros H H1 H2 H3. destruct (cfg_allb_ok (general_action c) (generalb c) c H (generalb_ok c) H2) as (A & B & _). split; [|split].
  - exact A.
  - intros n. unfold action. destruct (Nat.lt_ge_cases n (List.length (c_descs c))) as [Ln|Ln].
    + apply generalb_ok. rewrite forallb_forall in H3. apply H3. now apply nth_In.
    + rewrite nth_overflow by exact Ln. left. exact Logic.I.
  - intros i ch Hc. split; [exact (B i ch Hc)|]. intros x Hx. exact (filledb_ok c H1 i ch x Hc Hx).
Qed.
Lemma entire_check text : parsesb text = true -> filledb (cfg_of text) = true -> cfg_allb (generalb (cfg_of text)) (cfg_of text) = true ->
  forallb (generalb (cfg_of text)) (c_descs (cfg_of text)) = true -> entire (cfg_of text).
Proof. intros H. exact (entire_of _ (cfg_of_inv _ H)). Qed.
Lemma chord_shot_of c : inv c -> cfg_allb (fun d => negb (shotb d)) c = true -> forall i ch, In ch (ly_chords (the c i)) -> ~ oneshot_action (ch_d ch).
Proof. intros H E i ch Hc. destruct (cfg_allb_ok (fun d => ~ oneshot_action d) _ c H shotb_ok E) as (_ & B & _). exact (B i ch Hc). Qed.
Lemma chord_shot_ok text : parsesb text = true -> cfg_allb (fun d => negb (shotb d)) (cfg_of text) = true ->
  forall i ch, In ch (ly_chords (the (cfg_of text) i)) -> ~ oneshot_action (ch_d ch).
Proof. intros H. exact (chord_shot_of _ (cfg_of_inv _ H)). Qed.

Definition ex77_text : str := bs "[main]
a = overloadt(nav, esc, 200)
j+k = z
s+d = layer(nav)
s+d+f = y
[nav]
j = down
j+k = tab
".
Definition ex77 : config := cfg_of ex77_text.
(* the chord j+k; s+d, after a pause in which f might follow, and under it j alone and the other j+k;
   j and k too far apart; the chord while a waits *)
Definition ex77_evs : list kev :=
  [D 36 0; D 37 20; U 36 40; U 37 60;
   D 31 1000; D 32 1010; mkKev 0 false 1060; D 36 1100; U 36 1110; D 36 1200; D 37 1210; U 37 1220; U 36 1230; U 31 1240; U 32 1250;
   D 36 2000; mkKev 0 false 2050; D 37 2060; mkKev 0 false 2110; U 36 2120; U 37 2130;
   D 30 3000; D 36 3050; D 37 3060; U 30 3070; U 37 3080; U 36 3090]%N.
Definition ex77_out : list oev :=
  [OKey 44 true; OKey 44 false;
   OLayer 6 true true; OKey 108 true; OKey 108 false; OKey 15 true; OKey 15 false; OLayer 6 false false;
   OKey 36 true; OKey 37 true; OKey 36 false; OKey 37 false;
   OKey 1 true; OKey 44 true; OKey 1 false; OKey 44 false]%N.
(* after every event all that is to be struck again is *)
Definition driven (evs : list kev) : list turn := List.concat (map (fun e => [Given e; Next; Next; Next; Next; Next; Next]) evs).
Definition ends_all (c : config) (l : list turn) (o : list oev) : bool :=
  outb o (rev (o_log (m_host (g_m (turns_all c l))))) && match g_todo (turns_all c l) with [] => true | _ => false end.
Lemma ends_all_ok c l o : ends_all c l o = true -> rev (o_log (m_host (g_m (turns_all c l)))) = o /\ g_todo (turns_all c l) = [].
Proof.
  unfold ends_all. rewrite andb_true_iff. intros [X1 X2]. split; [symmetry; now apply outb_ok|]. destruct (g_todo (turns_all c l)); [reflexivity|discriminate X2].
Qed.
Example C77_example : config_parse ex77_text = Ok (Some ex77) /\ entire ex77 /\ no_oneshots ex77
  /\ (forall i ch, In ch (ly_chords (the ex77 i)) -> ~ oneshot_action (ch_d ch))
  /\ (exists k, calls_of ex77 2 ex77_evs k /\ rev (k_out k) = ex77_out)
  /\ given (driven ex77_evs) = ex77_evs /\ rev (o_log (m_host (g_m (turns_all ex77 (driven ex77_evs))))) = ex77_out /\ g_todo (turns_all ex77 (driven ex77_evs)) = [].
Proof.
  split; [apply parsesb_ok; vm_compute; reflexivity|].
  split; [apply entire_check; vm_compute; reflexivity|]. split; [apply no_shot_ok; vm_compute; reflexivity|].
  split; [apply chord_shot_ok; vm_compute; reflexivity|]. split; [apply says_ok; vm_compute; reflexivity|]. split; [reflexivity|].
  apply ends_all_ok. vm_compute. reflexivity.
Qed.

(* swap by a chord; the layer is held by a key decided later, which sits where it sat while it
   waited, and by a key pressed after it *)
Definition ex77s_text : str := bs "[main]
a = overloadt(nav, esc, 200)
s = layer(nav)
[nav]
j = down
j+k = swap(num)
[num]
j = 1
".
Definition ex77s : config := cfg_of ex77s_text.
Definition ex77s_evs : list kev :=
  [D 30 0; mkKev 0 false 200; D 31 300; D 36 400; D 37 410; U 36 420; U 37 430; D 36 500; mkKev 0 false 550; U 36 560; U 31 600; U 30 700]%N.
Definition ex77s_out : list oev :=
  [OLayer 6 true true; OLayer 6 true true; OLayer 6 false true; OLayer 7 true true; OKey 2 true; OKey 2 false; OLayer 7 false true; OLayer 6 false false]%N.
Example C77_swap_example : config_parse ex77s_text = Ok (Some ex77s) /\ entire ex77s /\ no_oneshots ex77s /\ swapping ex77s = true
  /\ (forall i ch, In ch (ly_chords (the ex77s i)) -> ~ oneshot_action (ch_d ch))
  /\ (exists k, calls_of ex77s 1 ex77s_evs k /\ rev (k_out k) = ex77s_out)
  /\ given (driven ex77s_evs) = ex77s_evs /\ rev (o_log (m_host (g_m (turns_all ex77s (driven ex77s_evs))))) = ex77s_out /\ g_todo (turns_all ex77s (driven ex77s_evs)) = [].
Proof.
  split; [apply parsesb_ok; vm_compute; reflexivity|].
  split; [apply entire_check; vm_compute; reflexivity|]. split; [apply no_shot_ok; vm_compute; reflexivity|]. split; [vm_compute; reflexivity|].
  split; [apply chord_shot_ok; vm_compute; reflexivity|]. split; [apply says_ok; vm_compute; reflexivity|]. split; [reflexivity|].
  apply ends_all_ok. vm_compute. reflexivity.
Qed.
