(* C24: timers. *)
From Coq Require Import String.
From Verif Require Import Base Lib Keys Types MacroExec Kbd Config Outside Engine Steps Hist ModsProofs ActProofs OneProofs StepProofs Inv LiftOk ClassInv SpecActions
  SpecLookup SpecHist TimerProofs KeptProofs SpecTimer TimelyProofs LookupProofs PropSteps PropMacro ExTools SpecDefer DeferProofs WfHist.
Local Open Scope nat_scope.
Local Open Scope list_scope.
Local Notation length := List.length.

(* Every deadline in the future has a timer, chords or not. *)
Theorem C24_timer : forall c T k t, timeline c T k -> deadline k t -> (T < t)%Z -> In t (k_timeouts k).
Proof.
  intros c T k t H D L. apply timeline_timely in H as [[[A1 [A2 A3]] [[B _] [_ [_ [_ F]]]]] _].
  destruct D as [D|D|m D|D]; auto.
  - apply A3; congruence.
  - assert (E : c_chord_interkey (k_cfg k) = fst (settings c)) by (rewrite <- F; reflexivity).
    rewrite E in *. auto.
Qed.
(* While all keys of a chord are down and have to be held, a timer is set for the end of
   the time or later (later: see C20). *)
Theorem C24_hold : forall c T k, timeline c T k -> h_state (k_chord k) = CsHold ->
  (T < h_last (k_chord k) + c_chord_hold (k_cfg k))%Z ->
  exists x, (h_last (k_chord k) + c_chord_hold (k_cfg k) <= x)%Z /\ In x (k_timeouts k).
Proof.
  intros c T k H Hs L. apply timeline_timely in H as [[_ [[_ B] [_ [_ [_ F]]]]] _].
  assert (E : c_chord_hold (k_cfg k) = snd (settings c)) by (rewrite <- F; reflexivity).
  rewrite E in *. auto.
Qed.

Lemma loop_calc fuel0 : forall fuel k evs t ts k' d T T', evs <> [] -> ordered T evs T' ->
  pe_loop (process_event fuel0) fuel k evs t ts = Ok (k', d) -> exists k1, calculate_main_loop_timeout k1 T' = (k', d).
Proof.
  induction fuel as [|fuel IH]; intros k evs t ts k' d T T' Hn Ho H; destruct evs as [|e rest]; try congruence; cbn [pe_loop] in H; [discriminate|].
  destruct (_ && _).
  - bstep H r E. destruct r as [k1 t1]. eauto.
  - bstep H r E. destruct r as [k1 t1]. inversion Ho; subst.
    destruct rest as [|e2 rest].
    + assert (X : Ok (k1, t1) = Ok (k', d)) by (destruct fuel; exact H). apply Ok_inj, pair_equal_spec in X as [-> ->].
      match goal with X : ordered _ [] _ |- _ => inversion X; subst end.
      eapply process_event_calc; eauto.
    + eapply (IH k1 (e2 :: rest)); [discriminate|eassumption|exact H].
Qed.
Lemma told_timeline c T k d : told c T k d -> timeline c T k
  /\ (forall x, In x (k_timeouts k) -> (T < x)%Z)
  /\ ((k_timeouts k = [] /\ d = 0%Z)
      \/ exists x, In x (k_timeouts k) /\ d = (x - T)%Z /\ forall y, In y (k_timeouts k) -> (x <= y)%Z).
Proof.
  intros [T0 [k0 [fuel [evs [H [Hn [Ho He]]]]]]].
  assert (Hk : timeline c T k) by (eapply tl_events; eauto).
  pose proof (timeline_timely _ _ _ Hk) as [_ [_ HT]].
  destruct (loop_calc _ _ _ _ _ _ _ _ _ _ Hn Ho He) as [k1 Ec].
  apply calc_spec in Ec as [C1 C2]; [|exact HT]. split; [exact Hk|]. split; [|exact C2].
  intros x Hx. now apply C1 in Hx.
Qed.

(* The delay returned leads to the earliest of them, or to an even earlier moment. *)
Theorem C24_delay : forall c T k d t, told c T k d -> deadline k t -> (T < t)%Z -> (0 < d <= t - T)%Z.
Proof.
  intros c T k d t H D L. apply told_timeline in H as [H [P [[E _]|[x [Hx [-> Hm]]]]]].
  - pose proof (C24_timer _ _ _ _ H D L) as X. rewrite E in X. destruct X.
  - pose proof (C24_timer _ _ _ _ H D L) as X. apply Hm in X. apply P in Hx. lia.
Qed.

Lemma told_next c T k d fuel k1 d1 : told c T k d -> (0 < d)%Z -> process_event fuel k 0%N false (T + d)%Z = Ok (k1, d1) ->
  told c (T + d) k1 d1.
Proof.
  intros H Hd E. pose proof (told_timeline _ _ _ _ H) as [Hk _].
  exists T, k, fuel, [mkKev 0%N false (T + d)]. split; [exact Hk|]. split; [discriminate|].
  split; [|now apply one_event]. apply or_cons; [cbn [ev_time]; lia|apply or_nil].
Qed.

(* what a tick does to a keyboard at rest *)
Lemma tick_idle f k t k1 d1 : idle k -> process_event f k 0%N false t = Ok (k1, d1) ->
  idle k1
  /\ (k_oneshot_to k = 0%Z \/ (t < k_oneshot_to k)%Z -> k_oneshot_to k1 = k_oneshot_to k)
  /\ ((t < k_macro_to k)%Z -> k_amacro k1 = k_amacro k /\ k_macro_to k1 = k_macro_to k).
Proof.
  intros [Hp Hs] H. destruct f; [discriminate|].
  apply process_event_open in H as [k2 [E H]]; [|split; auto|left; exact Hp].
  unfold calculate_main_loop_timeout in H. apply pair_equal_spec in H as [-> _].
  pose proof (rest_frame _ _ _ _ _ E) as [_ [_ [F3 _]]].
  unfold rest_step in E. bstep E k3 E3. bstep E k4 E4. cbn [handle_key N.eqb] in E. apply Ok_inj in E. subst k4.
  pose proof (expire_cp _ _ _ E3) as [[P3 _] _]. pose proof (run_macro_cp _ _ _ _ E4) as [[P4 _] _].
  assert (X3 : k_amacro k3 = k_amacro k /\ k_macro_to k3 = k_macro_to k
     /\ (k_oneshot_to k = 0%Z \/ (t < k_oneshot_to k)%Z -> k_oneshot_to k3 = k_oneshot_to k)).
  { clear -E3. unfold expire_oneshot in E3. cbn [k_oneshot_to chord_seen set_k_chord] in E3.
    destruct (negb (k_oneshot_to k =? 0)%Z && (k_oneshot_to k <=? t)%Z) eqn:Eb in E3.
    - bstep E3 k5 E5. apply Ok_inj in E3. subst k3. norm_states. kcbn. repeat split; auto. lia.
    - apply Ok_inj in E3. subst k3. auto. }
  clear E3. destruct X3 as [X1 [X2 X3]].
  split; [|split].
  - split; [cbn [k_pend set_k_timeouts]; rewrite P4, P3; exact Hp|]. cbn [k_chord set_k_timeouts]. rewrite F3. exact Hs.
  - intros Ho. cbn [k_oneshot_to set_k_timeouts]. rewrite <- (X3 Ho). unfold run_active_macro in E4.
    destruct (k_amacro k3); [|apply Ok_inj in E4; now subst]. cbn [N.eqb negb] in E4.
    destruct (_ <=? _)%Z; [|apply Ok_inj in E4; now subst]. bstep E4 mm Em. apply schedule_ok in E4. subst k2.
    destruct (execute_macro_only k3 (k_amacro_layer k3) mm) as [l1 [s1 [o1 ->]]]. reflexivity.
  - intros Hm. cbn [k_amacro k_macro_to set_k_timeouts]. rewrite <- X1, <- X2. unfold run_active_macro in E4.
    destruct (k_amacro k3) eqn:Ea; [|apply Ok_inj in E4; now subst]. cbn [N.eqb negb] in E4.
    replace (k_macro_to k3 <=? t)%Z with false in E4 by lia. apply Ok_inj in E4. now subst.
Qed.
(* ... and to one with an undecided key *)
Lemma tick_pending f k t k1 d1 : Forall (fun e => ev_code e <> 0%N) (p_queue (k_pend k)) -> p_code (k_pend k) <> 0%N -> h_state (k_chord k) = CsInactive -> (t < p_expire (k_pend k))%Z ->
  process_event f k 0%N false t = Ok (k1, d1) ->
  k_pend k1 = k_pend k /\ h_state (k_chord k1) = CsInactive.
Proof.
  intros Hq Hp Hs Ht H. destruct f; [discriminate|]. cbn [process_event] in H. rewrite process_event_plan in H.
  rewrite chord_plan_open in H by (split; [exact Hs|now left]).
  cbn [bind run_plan] in H. unfold after_chord in H. unfold pending_plan in H. cbv zeta in H.
  cbn [k_pend chord_seen set_k_chord] in H.
  destruct (N.eqb_spec (p_code (k_pend k)) 0) as [X|_] in H; [congruence|]. cbn [N.eqb negb andb] in H.
  replace (pending_action (k_pend k) 0 false t) with DNone in H.
  - cbn [has_op bind run_pplan] in H. apply Ok_inj in H. unfold calculate_main_loop_timeout in H.
    apply pair_equal_spec in H as [<- _]. split; [reflexivity|exact Hs].
  - unfold pending_action. replace (p_expire (k_pend k) <=? t)%Z with false by lia.
    destruct (N.eqb_spec 0 (p_code (k_pend k))) as [X|_]; [congruence|]. cbn [N.eqb negb andb].
    destruct (p_beh (k_pend k)); try reflexivity. destruct (existsb _ _) eqn:Ex; [|reflexivity].
    apply existsb_exists in Ex as [e [Ex1 Ex2]]. rewrite Forall_forall in Hq. apply Hq in Ex1. lia.
Qed.

(* Nothing but the calls asked for: an undecided key stays undecided until its time,
   and there is a call at that very moment... *)
Theorem C24_key : forall c T k d k' d' T', told c T k d -> p_code (k_pend k) <> 0%N -> (T < p_expire (k_pend k))%Z ->
  h_state (k_chord k) = CsInactive -> left_alone k d T k' d' T' -> (T' < p_expire (k_pend k))%Z ->
  told c T' k' d' /\ k_pend k' = k_pend k /\ h_state (k_chord k') = CsInactive /\ (0 < d' <= p_expire (k_pend k) - T')%Z.
Proof.
  intros c T k d k' d' T' Hd Hp Ht Hs W. revert Hd Hp Ht Hs. induction W as [k d T|k d T fuel k1 d1 k2 d2 T2 Hpos E W IH]; intros Hd Hp Ht Hs HT.
  - split; [exact Hd|]. split; [reflexivity|]. split; [exact Hs|]. eapply C24_delay; eauto. now apply dl_key.
  - assert (L : (T + d <= T2)%Z).
    { clear -W. induction W; lia. }
    pose proof (told_timeline _ _ _ _ Hd) as [Hk _]. apply timeline_timely in Hk as [[_ [_ [Hq _]]] _].
    apply tick_pending in E as E1; auto; [|revert Hq; apply Forall_impl; now intros e []|lia].
    destruct E1 as [E1 E2]. rewrite <- E1 in *. apply IH; auto; [|lia]. eapply told_next; eauto.
Qed.
(* ... which presses what the key does when held, then hands on what came in since *)
Theorem C24_key_decided : forall fuel k t k' d', p_code (k_pend k) <> 0%N -> h_state (k_chord k) = CsInactive ->
  p_a2 (k_pend k) <> DNone -> (p_expire (k_pend k) <= t)%Z ->
  process_event fuel k 0%N false t = Ok (k', d') ->
  exists q ca k1 k2 f, h_state q = CsInactive
    /\ do_desc (set_k_cache ca (aside (set_k_chord q k))) (p_code (k_pend k)) (p_a2 (k_pend k)) (p_dl (k_pend k)) true t = Ok k1
    /\ (exists d2, kbd_process_events f k1 (p_queue (k_pend k)) = Ok (k2, d2))
    /\ rung t k2 k'.
Proof.
  intros fuel k t k' d' Hp Hs Ha Ht H. destruct fuel as [|f]; [discriminate|]. cbn [process_event] in H. rewrite process_event_plan in H.
  rewrite chord_plan_open in H by (split; [exact Hs|now left]).
  cbn [bind run_plan] in H. unfold after_chord in H. unfold pending_plan in H. cbv zeta in H.
  cbn [k_pend chord_seen set_k_chord] in H.
  destruct (N.eqb_spec (p_code (k_pend k)) 0) as [X|_] in H; [congruence|]. cbn [N.eqb negb andb] in H.
  replace (pending_action (k_pend k) 0 false t) with (p_a2 (k_pend k)) in H
    by (unfold pending_action; now replace (p_expire (k_pend k) <=? t)%Z with true by lia).
  replace (has_op (p_a2 (k_pend k))) with true in H by (destruct (p_a2 (k_pend k)); try reflexivity; now elim Ha).
  bstep H r E. destruct r as [k3 b]. bstep E r2 E2. destruct r2 as [k4 pl]. bstep E2 k5 E5. apply Ok_inj, pair_equal_spec in E2 as [<- <-].
  cbn [run_pplan] in E. bstep E r6 E6. destruct r6 as [k6 d6]. apply Ok_inj, pair_equal_spec in E as [<- <-]. apply Ok_inj in H.
  unfold calculate_main_loop_timeout in H. apply pair_equal_spec in H as [<- _].
  unfold decide in E5.
  set (q := set_h_match None (set_h_queue [] (k_chord k))) in *.
  exists (k_chord (chord_seen k 0 false t)).
  match type of E5 with do_desc ?x _ _ _ _ _ = _ => exists (k_cache x) end.
  exists k5, k6, f. split; [exact Hs|]. split; [|split; [eauto|reflexivity]].
  rewrite <- E5. f_equal. unfold aside.
  destruct (cache_set _ _ _) as [kc|] eqn:Ec; [|now destruct k].
  apply cache_set_spec in Ec as [i [e [-> _]]]. now destruct k.
Qed.

(* a keyboard at rest: oneshot layers and repeating macros get their calls in time *)
Theorem C24_oneshot : forall c T k d k' d' T', told c T k d -> idle k -> k_oneshot_to k <> 0%Z -> (T < k_oneshot_to k)%Z ->
  left_alone k d T k' d' T' -> (T' < k_oneshot_to k)%Z ->
  told c T' k' d' /\ idle k' /\ k_oneshot_to k' = k_oneshot_to k /\ (0 < d' <= k_oneshot_to k - T')%Z.
Proof.
  intros c T k d k' d' T' Hd Hi Hp Ht W. revert Hd Hi Hp Ht. induction W as [k d T|k d T fuel k1 d1 k2 d2 T2 Hpos E W IH]; intros Hd Hi Hp Ht HT.
  - split; [exact Hd|]. split; [exact Hi|]. split; [reflexivity|]. eapply C24_delay; eauto. now apply dl_oneshot.
  - assert (L : (T + d <= T2)%Z) by (clear -W; induction W; lia).
    pose proof (tick_idle _ _ _ _ _ Hi E) as [E1 [E2 _]]. assert (E3 : k_oneshot_to k1 = k_oneshot_to k) by (apply E2; right; lia). clear E2. rewrite <- E3 in *.
    apply IH; auto; [|lia]. eapply told_next; eauto.
Qed.
Theorem C24_macro : forall c T k d k' d' T' m, told c T k d -> idle k -> k_amacro k = Some m -> (T < k_macro_to k)%Z ->
  left_alone k d T k' d' T' -> (T' < k_macro_to k)%Z ->
  told c T' k' d' /\ idle k' /\ k_amacro k' = Some m /\ k_macro_to k' = k_macro_to k /\ (0 < d' <= k_macro_to k - T')%Z.
Proof.
  intros c T k d k' d' T' m Hd Hi Hp Ht W. revert Hd Hi Hp Ht. induction W as [k d T|k d T fuel k1 d1 k2 d2 T2 Hpos E W IH]; intros Hd Hi Hp Ht HT.
  - split; [exact Hd|]. split; [exact Hi|]. split; [exact Hp|]. split; [reflexivity|]. eapply C24_delay; eauto. eapply dl_macro; eauto.
  - assert (L : (T + d <= T2)%Z) by (clear -W; induction W; lia).
    pose proof (tick_idle _ _ _ _ _ Hi E) as [E1 [_ E2]]. destruct E2 as [E2 E3]; [lia|]. rewrite <- E3 in *.
    apply IH; auto; [|congruence|lia]. eapply told_next; eauto.
Qed.

(* ---- examples ------------------------------------------------------------------------ *)
Fixpoint ordb (T : Z) (evs : list kev) : option Z :=
  match evs with
  | [] => Some T
  | e :: rest => if (T <=? ev_time e)%Z then ordb (ev_time e) rest else None
  end.
Lemma ordb_ok : forall evs T T', ordb T evs = Some T' -> ordered T evs T'.
Proof.
  induction evs as [|e rest IH]; cbn [ordb]; intros T T' H; [injection H as <-; apply or_nil|].
  destruct (Z.leb_spec T (ev_time e)); [|discriminate]. apply or_cons; auto.
Qed.
(* the batches, then the last batch *)
Fixpoint toldb (T : Z) (k : kbd) (bs : list (list kev)) : option (Z * kbd * Z) :=
  match bs with
  | [] => None
  | evs :: rest =>
      match ordb T evs, kbd_process_events 30 k evs with
      | Some T1, Ok (k1, d1) =>
          match rest with
          | [] => match evs with [] => None | _ => Some (T1, k1, d1) end
          | _ => toldb T1 k1 rest
          end
      | _, _ => None
      end
  end.
Lemma toldb_ok c : forall bs T k r, timeline c T k -> toldb T k bs = Some r -> told c (fst (fst r)) (snd (fst r)) (snd r).
Proof.
  induction bs as [|evs rest IH]; intros T k r H E; [discriminate E|]. cbn [toldb] in E.
  destruct (ordb T evs) as [T1|] eqn:Eo; [|discriminate E]. apply ordb_ok in Eo.
  destruct (kbd_process_events 30 k evs) as [[k1 d1]| | |] eqn:Ek; try discriminate E.
  destruct rest as [|e2 r2].
  - destruct evs as [|e1 es]; [discriminate E|]. injection E as <-. cbn [fst snd].
    exists T, k, 30, (e1 :: es). split; [exact H|]. split; [discriminate|]. split; [exact Eo|exact Ek].
  - eapply IH; [|exact E]. eapply tl_events; eauto.
Qed.
Definition told_so (c : config) (bs : list (list kev)) (T d : Z) (f : kbd -> bool) : bool :=
  match toldb 0 (new_keyboard c 1) bs with
  | Some (T1, k, d1) => (T1 =? T)%Z && (d1 =? d)%Z && f k
  | None => false
  end.
Lemma told_so_ok c bs T d f : told_so c bs T d f = true -> exists k, told c T k d /\ f k = true.
Proof.
  unfold told_so. destruct (toldb _ _ _) as [[[T1 k] d1]|] eqn:E; [|discriminate].
  rewrite !andb_true_iff. intros [[H1 H2] H3]. apply Z.eqb_eq in H1, H2. subst T1 d1.
  exists k. split; [|exact H3]. apply (toldb_ok c) in E; [exact E|]. apply tl_init. lia.
Qed.

Definition ex24_text : str := bs "[global]
oneshot_timeout = 100
[main]
a = overloadt(nav, x, 200)
e = overloadt(nav, y, 30)
f = overloadt(nav, y, 60)
c = oneshot(nav)
d = macro2(150, 60, macro(x))
j+k = z
[nav]
b = left
".
Definition ex24 : config := cfg_of ex24_text.
Definition ex24p_text : str := bs "[global]
oneshot_timeout = 100
[main]
a = overloadt(nav, x, 200)
e = overloadt(nav, y, 30)
c = oneshot(nav)
[nav]
b = left
".
Definition ex24p : config := cfg_of ex24p_text.
Definition undecb (k : kbd) (code : N) (t : Z) : bool := (p_code (k_pend k) =? code)%N && (p_expire (k_pend k) =? t)%Z.

(* Each kind of deadline, with the delay that leads to it. *)
Example C24_example : config_parse ex24_text = Ok (Some ex24)
  /\ (exists k, told ex24 10 k 200 /\ p_code (k_pend k) <> 0%N /\ p_expire (k_pend k) = 210%Z
        /\ h_state (k_chord k) = CsInactive /\ p_a2 (k_pend k) <> DNone)
  /\ (exists k, told ex24 30 k 100 /\ idle k /\ k_oneshot_to k = 130%Z)
  /\ (exists k, told ex24 10 k 150 /\ idle k /\ k_amacro k = Some 0 /\ k_macro_to k = 160%Z)
  /\ (exists k, told ex24 160 k 60 /\ idle k /\ k_amacro k = Some 0 /\ k_macro_to k = 220%Z)
  /\ (exists k, told ex24 10 k 50 /\ h_state (k_chord k) = CsDisambiguation /\ deadline k 60).
Proof.
  split; [apply parsesb_ok; vm_compute; reflexivity|].
  assert (H1 : told_so ex24 [[D 30 10]%N] 10 200 (fun k => undecb k 30 210 && has_op (p_a2 (k_pend k))
       && match h_state (k_chord k) with CsInactive => true | _ => false end) = true) by (vm_compute; reflexivity).
  assert (H2 : told_so ex24 [[D 46 10; U 46 30]%N] 30 100 (fun k => idleb k && (k_oneshot_to k =? 130)%Z) = true) by (vm_compute; reflexivity).
  assert (H3 : told_so ex24 [[D 32 10]%N] 10 150 (fun k => idleb k && match k_amacro k with Some O => true | _ => false end && (k_macro_to k =? 160)%Z) = true) by (vm_compute; reflexivity).
  assert (H4 : told_so ex24 [[D 32 10]; [T 160]]%N 160 60 (fun k => idleb k && match k_amacro k with Some O => true | _ => false end && (k_macro_to k =? 220)%Z) = true) by (vm_compute; reflexivity).
  assert (H5 : told_so ex24 [[D 36 10]]%N 10 50 (fun k => match h_state (k_chord k) with CsDisambiguation => true | _ => false end
      && (h_last (k_chord k) + c_chord_interkey (k_cfg k) =? 60)%Z) = true) by (vm_compute; reflexivity).
  apply told_so_ok in H1 as [k1 [A1 B1]]. apply told_so_ok in H2 as [k2 [A2 B2]]. apply told_so_ok in H3 as [k3 [A3 B3]].
  apply told_so_ok in H4 as [k4 [A4 B4]]. apply told_so_ok in H5 as [k5 [A5 B5]].
  rewrite !andb_true_iff in *. unfold undecb in B1. rewrite !andb_true_iff in B1.
  split; [|split; [|split; [|split]]].
  - exists k1. split; [exact A1|]. destruct B1 as [[[X Y] Z0] W]. apply N.eqb_eq in X. apply Z.eqb_eq in Y.
    split; [rewrite X; discriminate|]. split; [exact Y|]. split; [destruct (h_state _); congruence|]. intros E. rewrite E in Z0. discriminate Z0.
  - exists k2. split; [exact A2|]. destruct B2 as [X Y]. split; [now apply idleb_ok|]. now apply Z.eqb_eq.
  - exists k3. split; [exact A3|]. destruct B3 as [[X Y] Z0]. split; [now apply idleb_ok|]. split; [|now apply Z.eqb_eq].
    destruct (k_amacro k3) as [[|]|]; congruence.
  - exists k4. split; [exact A4|]. destruct B4 as [[X Y] Z0]. split; [now apply idleb_ok|]. split; [|now apply Z.eqb_eq].
    destruct (k_amacro k4) as [[|]|]; congruence.
  - exists k5. split; [exact A5|]. destruct B5 as [X Y]. apply Z.eqb_eq in Y. rewrite <- Y.
    assert (Hs : h_state (k_chord k5) = CsDisambiguation) by (destruct (h_state (k_chord k5)); congruence).
    split; [exact Hs|now apply dl_chord].
Qed.

(* A key that was held back by another one may be due before it is even handed on; then
   no call is asked for, and it stays undecided until the next event. *)
Theorem C24_late_refuted : config_parse ex24p_text = Ok (Some ex24p)
  /\ exists k, told ex24p 210 k 0 /\ p_code (k_pend k) = 18%N /\ p_expire (k_pend k) = 190%Z.
Proof.
  split; [apply parsesb_ok; vm_compute; reflexivity|].
  assert (H : told_so ex24p [[D 30 10]; [D 18 160]; [T 210]]%N 210 0 (fun k => undecb k 18 190) = true) by (vm_compute; reflexivity).
  apply told_so_ok in H as [k [A B]]. exists k. split; [exact A|]. apply andb_true_iff in B as [B1 B2].
  split; [now apply N.eqb_eq|now apply Z.eqb_eq].
Qed.
(* A oneshot layer due while a key is undecided does not expire, then or when the key is
   decided. *)
Theorem C24_oneshot_refuted : exists k, told ex24p 250 k 0 /\ idle k /\ k_oneshot_to k = 130%Z /\ oneshots k 6 = 1%N.
Proof.
  assert (H : told_so ex24p [[D 46 10; U 46 30]; [D 30 50]; [T 130]; [T 250]]%N 250 0
     (fun k => idleb k && (k_oneshot_to k =? 130)%Z && (oneshots k 6 =? 1)%N) = true) by (vm_compute; reflexivity).
  apply told_so_ok in H as [k [A B]]. exists k. split; [exact A|]. rewrite !andb_true_iff in B. destruct B as [[B1 B2] B3].
  split; [now apply idleb_ok|]. split; [now apply Z.eqb_eq|now apply N.eqb_eq].
Qed.
(* If a chord attempt ends at the moment a key has to be decided, the call serves the
   chord only; the key stays undecided. *)
Theorem C24_chord_refuted : exists k, told ex24 70 k 0 /\ p_code (k_pend k) = 33%N /\ p_expire (k_pend k) = 70%Z.
Proof.
  assert (H : told_so ex24 [[D 33 10]; [D 36 20]; [T 70]]%N 70 0 (fun k => undecb k 33 70) = true) by (vm_compute; reflexivity).
  apply told_so_ok in H as [k [A B]]. exists k. split; [exact A|]. apply andb_true_iff in B as [B1 B2].
  split; [now apply N.eqb_eq|now apply Z.eqb_eq].
Qed.

Definition C24_all := (C24_timer, C24_hold, C24_delay, C24_key, C24_key_decided, C24_oneshot, C24_macro, C24_late_refuted,
  C24_oneshot_refuted, C24_chord_refuted).
Print Assumptions C24_all.
