(* C42 (panic sequence), C46 (timers of the main loop), C47 (reload), C51 (pointers to
   keyboards). *)
From Coq Require Import String.
From Verif Require Import Base Lib Types Keys Kbd Config Match Device Daemon SpecDaemon DaemonProofs.
Local Open Scope list_scope.
Local Open Scope N_scope.
Local Notation length := List.length.

(* ---- concrete histories ------------------------------------------------------------ *)
Definition simulate (fuel : nat) (wr : nat -> bool) (texts : list str) (devs : list device) (ts : Z) (rs : list round)
  : res lstate :=
  l <- start fuel wr texts devs (fun _ => true) ts ;; loop fuel wr rs l.
Lemma loop_runs fuel wr rs : forall l l', runs fuel wr l -> Forall (fun r => r_added r = []) rs ->
  loop fuel wr rs l = Ok l' -> runs fuel wr l'.
Proof.
  induction rs as [|r rs IH]; cbn [loop]; intros l l' R F H; [apply Ok_inj in H; now subst|].
  destruct (loop_round fuel wr r l) as [l1| | |] eqn:E; cbn [bind] in H; try discriminate H.
  apply (IH l1 l'); [|exact (Forall_inv_tail F)|exact H]. apply (runs_round fuel wr r l l1 R); [|exact E].
  rewrite (Forall_inv F). constructor.
Qed.
Lemma simulate_runs fuel wr texts devs ts rs l : Forall unbound devs -> Forall (fun r => r_added r = []) rs ->
  simulate fuel wr texts devs ts rs = Ok l -> runs fuel wr l.
Proof.
  unfold simulate. intros Fd Fr H. destruct (start _ _ _ _ _ _) as [l0| | |] eqn:E; cbn [bind] in H; try discriminate H.
  eapply loop_runs; [|exact Fr|exact H]. eapply runs_start; [exact Fd|exact E].
Qed.
(* two keyboards *)
Definition a_keyboard : device := mkDev true false CAP_KEYBOARD false (bs "1234:5678") (mkAxes 0 0) None.
Definition two : list device := [a_keyboard; a_keyboard].
Lemma two_unbound : Forall unbound two.
Proof. apply Forall_cons; [reflexivity|apply Forall_cons; [reflexivity|constructor]]. Qed.
Definition key (c : N) (v : Z) : rd := REvent (mkIev 1 c v).
(* device 0 delivers a, device 1 delivers b *)
Definition reading (start stop : Z) (a b : list rd) : round :=
  mkRound start stop (fun i => match i with O => a | 1%nat => b | _ => [] end) [] [].
Definition message (start stop : Z) (m : imsg) : round :=
  mkRound start stop (fun _ => []) [(7%nat, m, [bs "[ids]"%string ++ 10 :: bs "*"%string ++ [10]], fun _ => true)] [].
Definition daemon_text : str := Eval vm_compute in
  concat (map (fun l => bs l ++ [10]) ["[ids]"; "*"; "[main]"; "a = overloadt(shift, b, 200)"; "c = C-x"]%string).
Definition all_ok (n : nat) : bool := true.
Definition a_run (rs : list round) : res lstate := simulate 50 all_ok [daemon_text] two 1 rs.

(* Existence of a history with given results from a computation. *)
Lemma sim_ex (rs : list round) (P : lstate -> bool) : Forall (fun r => r_added r = []) rs ->
  (match a_run rs with Ok l => P l | _ => false end) = true -> exists l, runs 50 all_ok l /\ P l = true.
Proof.
  unfold a_run. intros F H. destruct (simulate 50 all_ok [daemon_text] two 1 rs) as [l| | |] eqn:E; try discriminate H.
  exists l. split; [|exact H]. exact (simulate_runs 50 all_ok [daemon_text] two 1 rs l two_unbound F E).
Qed.
Ltac no_added := repeat (apply Forall_cons; [reflexivity|]); apply Forall_nil.

(* ---- C42 --------------------------------------------------------------------------- *)
(* The process stops at the first moment at which, by the events read, backspace,
   escape and enter are down, and never otherwise by this path.  Whatever the
   configurations, devices, grabs and clients. *)
Theorem C42_panic : forall fuel wr l, runs fuel wr l -> sane l ->
  lp_dead l = panicked (reads_of l) /\
  forall before after, reads_of l = before ++ after -> after <> [] -> panicked before = false.
Proof. intros fuel wr l R S. destruct (runs_pinv fuel wr l R S) as [_ _ B D]. auto. Qed.
(* A stopped process does nothing more. *)
Theorem C42_stopped : forall fuel wr r l l', loop_round fuel wr r l = Ok l' -> lp_dead l = true -> l' = l.
Proof. intros fuel wr r l l' H D. apply round_cases in H as [[-> _]|[F _]]; [reflexivity|congruence]. Qed.

(* The LED of caps lock counts as escape. *)
Theorem C42_led_refuted : exists l, runs 50 all_ok l /\ lp_dead l = true /\ panicked (reads_of l) = false.
Proof.
  destruct (sim_ex [reading 1 5 [key 14 1; key 28 1; REvent (mkIev 17 1 1)] []]
                   (fun l => lp_dead l && negb (panicked (reads_of l)))) as (l & R & H).
  - no_added.
  - vm_compute. reflexivity.
  - exists l. apply andb_true_iff in H as [H1 H2]. apply negb_true_iff in H2. auto.
Qed.
(* What counts is the last event of a key on any keyboard: backspace, escape and
   enter are held on the first keyboard, backspace was tapped on the second; the
   process lives. *)
Definition down_on (l : lstate) (i : nat) (c : N) : bool :=
  down (map snd (filter (fun x => Nat.eqb (fst x) i) (rev (lp_reads l)))) c.
Theorem C42_two_keyboards_refuted : exists l, runs 50 all_ok l /\ sane l /\
  forallb (down_on l 0) [14; 1; 28] = true /\ lp_dead l = false.
Proof.
  destruct (sim_ex [reading 1 5 [key 14 1] []; reading 5 6 [] [key 14 1]; reading 6 7 [] [key 14 0]; reading 7 8 [key 1 1; key 28 1] []]
     (fun l => forallb (fun x => match snd x with
                 | REvent e => (ie_type e =? 1) && ((ie_value e =? 0)%Z || (ie_value e =? 1)%Z) | _ => true end) (lp_reads l)
               && forallb (down_on l 0) [14; 1; 28] && negb (lp_dead l))) as (l & R & H).
  - no_added.
  - vm_compute. reflexivity.
  - exists l. rewrite !andb_true_iff, negb_true_iff in H. destruct H as [[H1 H2] H3].
    split; [exact R|]. split; [|auto]. intros i r Hi. rewrite forallb_forall in H1. specialize (H1 _ Hi). cbn [snd] in H1.
    destruct r as [e| |]; cbn [sane_read]; auto. rewrite andb_true_iff, orb_true_iff, N.eqb_eq, !Z.eqb_eq in H1.
    destruct H1 as [Ht Hv]. split; [intros _; tauto|]. rewrite Ht. discriminate.
Qed.
Example C42_ex : exists l, runs 50 all_ok l /\ lp_dead l = true /\ panicked (reads_of l) = true /\ length (lp_reads l) = 5%nat.
Proof.
  destruct (sim_ex [reading 1 5 [key 14 1; key 30 1] [key 1 1; key 30 0; key 28 1; key 31 1]]
     (fun l => lp_dead l && panicked (reads_of l) && Nat.eqb (length (lp_reads l)) 5)) as (l & R & H).
  - no_added.
  - vm_compute. reflexivity.
  - exists l. rewrite !andb_true_iff, Nat.eqb_eq in H. tauto.
Qed.
Definition C42_all := (C42_panic, C42_stopped, C42_led_refuted, C42_two_keyboards_refuted, C42_ex).
Print Assumptions C42_all.

(* ---- C46 --------------------------------------------------------------------------- *)
(* If handling takes no time, the loop calls the engine with a timer event at the
   first wake-up at or after the requested moment, before anything else, exactly
   once, and at no other time. *)
Theorem C46_timer : forall fuel wr l now r l', prompt fuel wr l now -> lp_dead l = false ->
  r_start r = now -> (now <= r_stop r)%Z -> loop_round fuel wr r l = Ok l' ->
  exists more, lp_calls l' = more ++ lp_calls l /\
    let due := match deadline (lp_calls l) with Some D => (D <=? r_stop r)%Z | None => false end in
    if due then exists newer t, more = newer ++ [(lp_d l, EvTimeout, r_stop r, t)] /\
                  runs_engine (lp_d l) EvTimeout = true /\ Forall (fun c => is_timer c = false) newer
    else Forall (fun c => is_timer c = false) more.
Proof.
  intros fuel wr l now r l' Hp Hd Hs Hm H. apply prompt_timer in Hp; [|exact Hd]. subst now.
  destruct (round_timer _ _ _ _ _ H Hd Hm Hp) as (_ & more & A & B). exists more. split; [exact A|].
  destruct (deadline (lp_calls l)); exact B.
Qed.
(* The deadline lies in the future while the loop waits: none was missed. *)
Theorem C46_pending : forall fuel wr l now D, prompt fuel wr l now -> lp_dead l = false ->
  deadline (lp_calls l) = Some D -> (now < D)%Z.
Proof.
  intros fuel wr l now D Hp Hd E. apply prompt_timer in Hp as [_ T]; [|exact Hd]. rewrite E in T. tauto.
Qed.
Definition due_by (l : lstate) (t : Z) : bool :=
  match deadline (lp_calls l) with Some D => (D <=? t)%Z | None => false end.
(* If handling is delayed a request can be lost: a is pressed at 10, the decision is
   due at 210; the loop polls again at 300, a client's message arrives at 310; the
   decision has still not been made at 100000. *)
Theorem C46_delay_refuted : exists l, runs 50 all_ok l /\ lp_dead l = false /\ due_by l 210 = true /\
  Forall (fun c => is_timer c = false) (lp_calls l) /\ (lp_timeout l <= 0)%Z /\
  exists d ev t, In (d, ev, 100000%Z, t) (lp_calls l).
Proof.
  destruct (sim_ex [reading 1 10 [key 30 1] []; message 300 310 (mkMsg IOther 0 [] 0); message 310 100000 (mkMsg IOther 0 [] 0)]
     (fun l => negb (lp_dead l) && due_by l 210 && forallb (fun c => negb (is_timer c)) (lp_calls l)
               && (lp_timeout l <=? 0)%Z && existsb (fun c => match c with (_, _, ts, _) => (ts =? 100000)%Z end) (lp_calls l)))
     as (l & R & H).
  - no_added.
  - vm_compute. reflexivity.
  - exists l. rewrite !andb_true_iff, negb_true_iff, Z.leb_le in H. destruct H as [[[[H1 H2] H3] H4] H5].
    split; [exact R|]. split; [exact H1|]. split; [exact H2|]. split; [|split; [exact H4|]].
    + apply Forall_forall. intros c Hc. rewrite forallb_forall in H3. specialize (H3 c Hc). now apply negb_true_iff.
    + apply existsb_exists in H5 as ([[[d ev] ts] t] & Hi & E). apply Z.eqb_eq in E. subst. eauto.
Qed.
Definition both_calls (cs : list (dstate * event * Z * Z)) : bool :=
  match cs with
  | (_, EvDev i _, s1, _) :: (_, EvTimeout, s2, _) :: _ => Nat.eqb i 0 && (s1 =? 215)%Z && (s2 =? 215)%Z
  | _ => false
  end.
(* a pressed at 10 asks to be called back at 210: the loop wakes up at 100 and 215 *)
Example C46_ex : exists l l', prompt 50 all_ok l 100 /\ lp_dead l = false /\ deadline (lp_calls l) = Some 210%Z /\
  loop_round 50 all_ok (reading 100 215 [key 48 1] []) l = Ok l' /\
  exists d1 de t1 d2 t2 rest, lp_calls l' = (d1, EvDev 0 de, 215%Z, t1) :: (d2, EvTimeout, 215%Z, t2) :: rest.
Proof.
  destruct (start 50 all_ok [daemon_text] two (fun _ => true) 1) as [l0| | |] eqn:E0.
  2-4: exfalso; vm_compute in E0; discriminate E0.
  assert (H : match loop 50 all_ok [reading 1 10 [key 30 1] []; reading 10 100 [] [key 46 1]] l0 with
              | Ok l => negb (lp_dead l) && match deadline (lp_calls l) with Some D => (D =? 210)%Z | None => false end
                        && match loop_round 50 all_ok (reading 100 215 [key 48 1] []) l with
                           | Ok l' => both_calls (lp_calls l')
                           | _ => false end
              | _ => false end = true).
  { assert (H : match a_run [reading 1 10 [key 30 1] []; reading 10 100 [] [key 46 1]] with
              | Ok l => negb (lp_dead l) && match deadline (lp_calls l) with Some D => (D =? 210)%Z | None => false end
                        && match loop_round 50 all_ok (reading 100 215 [key 48 1] []) l with
                           | Ok l' => both_calls (lp_calls l')
                           | _ => false end
              | _ => false end = true) by (vm_compute; reflexivity).
    unfold a_run, simulate in H. rewrite E0 in H. exact H. }
  cbn [loop] in H.
  destruct (loop_round 50 all_ok (reading 1 10 [key 30 1] []) l0) as [l1| | |] eqn:E1; cbn [bind] in H; try discriminate H.
  destruct (loop_round 50 all_ok (reading 10 100 [] [key 46 1]) l1) as [l2| | |] eqn:E2; cbn [bind] in H; try discriminate H.
  rewrite !andb_true_iff, negb_true_iff in H. destruct H as [[H1 H2] H3].
  destruct (loop_round 50 all_ok (reading 100 215 [key 48 1] []) l2) as [l3| | |] eqn:E3; try discriminate H3.
  exists l2, l3. split.
  { change 100%Z with (r_stop (reading 10 100 [] [key 46 1])). eapply (prompt_round _ _ _ l1 l2 10%Z); [| |cbn [r_stop reading]; lia|exact E2]; [|reflexivity].
    change 10%Z with (r_stop (reading 1 10 [key 30 1] [])). eapply (prompt_round _ _ _ l0 l1 1%Z); [| |cbn [r_stop reading]; lia|exact E1]; [|reflexivity].
    eapply prompt_start; [|exact E0]. lia. }
  split; [exact H1|]. split; [destruct (deadline (lp_calls l2)); [apply Z.eqb_eq in H2; now subst|discriminate H2]|].
  split; [exact E3|].
  unfold both_calls in H3. destruct (lp_calls l3) as [|[[[d1 e1] s1] t1] [|[[[d2 e2] s2] t2] rest]]; [discriminate H3| |].
  { destruct e1; discriminate H3. }
  destruct e1 as [|i de| | |]; try discriminate H3. destruct e2; try discriminate H3.
  rewrite !andb_true_iff, Nat.eqb_eq, !Z.eqb_eq in H3. destruct H3 as [[-> ->] ->]. repeat eexists.
Qed.
Definition C46_all := (C46_timer, C46_pending, C46_delay_refuted, C46_ex).
Print Assumptions C46_all.

(* ---- C47 and C51 --------------------------------------------------------------------- *)
(* the states of the daemon in a history: the present one and those at every call of
   the handler *)
Definition was (l : lstate) (d : dstate) : Prop := d = lp_d l \/ exists ev ts t, In (d, ev, ts, t) (lp_calls l).
Lemma was_seen fuel wr P l d : seen fuel wr P l -> was l d -> P d.
Proof. intros [A B] [->|(ev & ts & t & Hi)]; [exact A|]. now destruct (B _ _ _ _ Hi). Qed.

Lemma load_fresh texts clock : forall acc ents, load_files texts clock acc = Ok ents ->
  forall k, In k ents -> In k acc \/ exists text c, In text texts /\ config_parse text = Ok (Some c) /\ k = new_keyboard c clock.
Proof.
  induction texts as [|t r IH]; cbn [load_files]; intros acc ents H k Hk; [apply Ok_inj in H; subst; auto|].
  destruct (config_parse t) as [o| | |] eqn:E; cbn [bind] in H; try discriminate H.
  destruct (IH _ _ H k Hk) as [Hi|(text & c & A & B & C)]; [|right; exists text, c; split; [now right|auto]].
  destruct o as [c|]; [|auto]. destruct Hi as [<-|Hi]; [|auto]. right. exists t, c. split; [now left|auto].
Qed.

(* After a reload request is served no key is down on the virtual keyboard; all
   that was sent are releases; every keyboard is new. *)
Theorem C47_reload : forall fuel wr l d con m texts grabs ts d' t, runs fuel wr l -> was l d ->
  i_type m = IReload -> i_sz m < 4096 -> i_timeout m <= 1000000 ->
  event_handler fuel wr (EvClient con m texts grabs) ts d = Ok (d', t) ->
  (forall c, vheld (d_out d') c = false) /\
  (exists rels, d_out d' = VReply con true :: rels ++ d_out d /\ Forall (fun v => exists c, v = VKey c false) rels) /\
  (forall k, In k (d_ents d') -> exists text c, In text texts /\ config_parse text = Ok (Some c) /\ k = new_keyboard c (d_clock d)).
Proof.
  intros fuel wr l d con m texts grabs ts d' t R W Hm Hs Ht H.
  pose proof (was_seen _ _ _ _ _ (runs_hold _ _ _ R) W) as Ho.
  unfold event_handler in H. set (d0 := set_d_times _ _ d) in *. cbv beta zeta in H.
  unfold handle_client in H. rewrite Hm in H.
  replace (4096 <=? i_sz m) with false in H by (symmetry; apply N.leb_gt; exact Hs).
  replace (1000000 <? i_timeout m) with false in H by (symmetry; apply N.ltb_ge; exact Ht).
  destruct (reload texts grabs d0) as [d1| | |] eqn:E; cbn [bind] in H; try discriminate H.
  apply Ok_inj in H. apply pair_equal_spec in H as [<- _].
  unfold vemit. cbn [d_out d_ents set_d_times set_d_out].
  assert (C : forall c, vheld (d_out d1) c = false) by (apply (reload_clears _ _ _ _ E); exact Ho).
  split; [exact C|]. apply reload_inv in E as (ents & E & ->). split.
  - destruct (clear_keys_spec (seq 0 256) (reload_base texts grabs d0 ents) _ eq_refl) as (_ & _ & _ & rels & A & B).
    exists rels. split; [f_equal; exact A|]. eapply Forall_impl; [|exact B]. intros v (c & -> & _). eauto.
  - intros k Hk. destruct (clear_vkbd_same (reload_base texts grabs d0 ents)) as (_ & B & _). rewrite B in Hk.
    destruct (load_fresh _ _ _ _ E k Hk) as [[]|X]. exact X.
Qed.
(* c = C-x held at the reload *)
Definition reload_msg : imsg := mkMsg IReload 0 [] 0.
Example C47_ex : exists l d, runs 50 all_ok l /\ was l d /\ vheld (d_out d) 29 = true /\ vheld (d_out d) 45 = true /\
  vheld (d_out (lp_d l)) 29 = false /\ vheld (d_out (lp_d l)) 45 = false /\ exists texts grabs t,
  In (d, EvClient 7 reload_msg texts grabs, 20%Z, t) (lp_calls l).
Proof.
  destruct (sim_ex [reading 1 10 [key 46 1] []; message 10 20 reload_msg]
    (fun l => match lp_calls l with
              | (d, EvClient con (mkMsg IReload 0 [] 0) texts grabs, ts, t) :: _ => Nat.eqb con 7 && (ts =? 20)%Z && vheld (d_out d) 29 && vheld (d_out d) 45
                  && negb (vheld (d_out (lp_d l)) 29) && negb (vheld (d_out (lp_d l)) 45)
              | _ => false end)) as (l & R & H).
  - no_added.
  - vm_compute. reflexivity.
  - exists l. destruct (lp_calls l) as [|[[[d ev] ts] t] cs] eqn:Ec; [discriminate H|].
    destruct ev as [| | | |con m texts grabs]; try discriminate H.
    destruct m as [ty tmo data sz]. destruct ty; try discriminate H.
    destruct tmo; [|discriminate H]. destruct data; [|discriminate H]. destruct sz; [|discriminate H].
    rewrite !andb_true_iff, !negb_true_iff, Nat.eqb_eq, Z.eqb_eq in H.
    destruct H as [[[[[-> ->] H1] H2] H3] H4]. exists d. split; [exact R|].
    split; [right; rewrite Ec; do 3 eexists; now left|]. repeat split; auto. exists texts, grabs, t. now left.
Qed.
Definition C47_all := (C47_reload, C47_ex).
Print Assumptions C47_all.

(* Every device's pointer leads to a keyboard of the present configurations.  So
   does active_kbd unless it is left over from before a reload. *)
Theorem C51_devices : forall fuel wr l d dv p, runs fuel wr l -> was l d ->
  In dv (d_devs d) -> dv_data dv = Some p -> exists k, deref d p = Ok k.
Proof.
  intros fuel wr l d dv p R W Hi Hd. apply live_deref.
  exact (po_dev d (was_seen _ _ _ _ _ (runs_ptr _ _ _ R) W) dv p Hi Hd).
Qed.
Theorem C51_active : forall fuel wr l d p, runs fuel wr l -> was l d -> d_active d = Some p ->
  (exists k, deref d p = Ok k) \/ (0 < fst p < d_gen d)%nat.
Proof.
  intros fuel wr l d p R W Ha.
  destruct (po_active d (was_seen _ _ _ _ _ (runs_ptr _ _ _ R) W) p Ha) as [H|H]; [auto|left; now apply live_deref].
Qed.
(* The left-over pointer is used: a pressed, reload, and the timer of a runs the
   engine on freed memory. *)
Theorem C51_dangling_refuted : exists l, runs 50 all_ok l /\ lp_dead l = false /\
  loop_round 50 all_ok (reading 20 300 [] []) l = UB.
Proof.
  destruct (sim_ex [reading 1 10 [key 30 1] []; message 10 20 reload_msg]
    (fun l => negb (lp_dead l) && match loop_round 50 all_ok (reading 20 300 [] []) l with UB => true | _ => false end)) as (l & R & H).
  - no_added.
  - vm_compute. reflexivity.
  - exists l. rewrite andb_true_iff, negb_true_iff in H. destruct H as [H1 H2]. split; [exact R|]. split; [exact H1|].
    destruct (loop_round _ _ _ _); auto; discriminate H2.
Qed.
Example C51_ex : exists l p, runs 50 all_ok l /\ d_active (lp_d l) = Some p /\
  match d_devs (lp_d l) with dv :: _ => dv_data dv = Some p | [] => False end /\ exists k, deref (lp_d l) p = Ok k.
Proof.
  destruct (sim_ex [reading 1 10 [key 46 1] []]
    (fun l => match d_active (lp_d l), d_devs (lp_d l) with
              | Some p, dv :: _ => match dv_data dv with Some q => kptr_eqb q p | None => false end
                                   && match deref (lp_d l) p with Ok _ => true | _ => false end
              | _, _ => false end)) as (l & R & H).
  - no_added.
  - vm_compute. reflexivity.
  - exists l. destruct (d_active (lp_d l)) as [p|]; [|discriminate H]. destruct (d_devs (lp_d l)) as [|dv ds]; [discriminate H|].
    exists p. split; [exact R|]. split; [reflexivity|]. apply andb_true_iff in H as [H1 H2]. split.
    + destruct (dv_data dv) as [[q1 q2]|]; [|discriminate H1]. destruct p as [p1 p2]. unfold kptr_eqb in H1. cbn [fst snd] in H1.
      rewrite andb_true_iff, !Nat.eqb_eq in H1. destruct H1. now subst.
    + destruct (deref (lp_d l) p); try discriminate H2. eauto.
Qed.
Definition C51_all := (C51_devices, C51_active, C51_dangling_refuted, C51_ex).
Print Assumptions C51_all.
