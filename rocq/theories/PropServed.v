(* C84: no deadline of the keyboard in use is missed. *)
From Coq Require Import String.
From Verif Require Import Base Lib Keys Types MacroExec Kbd Config Outside Match Device Daemon SpecDaemon EntryProofs DaemonProofs PropDaemon SpecServed ServedProofs.
From Verif Require SpecTimer PropTimer.
Local Open Scope list_scope.
Local Open Scope N_scope.
Local Notation length := List.length.

(* While the loop waits, handling being prompt: for every moment t at which the keyboard in
   use has to do something by itself (a key is decided, a oneshot expires, a macro repeats, a
   chord is given up), t lying after the last call of the engine, the loop is going to wake
   up, later than now and not later than t. *)
Theorem C84_covered : forall fuel wr l now p k t T, prompt fuel wr l now -> lp_dead l = false ->
  in_use p (lp_calls l) -> deref (lp_d l) p = Ok k -> latest (lp_calls l) = Some T ->
  SpecTimer.deadline k t -> (T < t)%Z ->
  exists D, deadline (lp_calls l) = Some D /\ (now < D <= t)%Z.
Proof.
  intros fuel wr l now p k t T Hp Hd Hu Hk HT Ht L. destruct (prompt_inv _ _ _ _ Hp) as (_ & _ & C).
  destruct (C p k Hu Hk) as [_ (c & T' & E & H & F)]. rewrite HT in E. injection E as <-.
  destruct (F t (PropTimer.C24_timer _ _ _ _ H Ht L)) as (D & HD & LD). exists D. split; [exact HD|].
  split; [exact (C46_pending _ _ _ _ _ Hp Hd HD)|exact LD].
Qed.
(* When the loop returns from its wait at t or later, the first thing it does is to call the
   engine of that keyboard, in the state in which it was left. *)
Theorem C84_served : forall fuel wr l now p k t T r l', prompt fuel wr l now -> lp_dead l = false ->
  in_use p (lp_calls l) -> deref (lp_d l) p = Ok k -> latest (lp_calls l) = Some T ->
  SpecTimer.deadline k t -> (T < t)%Z ->
  r_start r = now -> (t <= r_stop r)%Z -> loop_round fuel wr r l = Ok l' ->
  exists newer delay k', lp_calls l' = newer ++ (lp_d l, EvTimeout, r_stop r, delay) :: lp_calls l
    /\ kbd_process_events fuel (set_k_clock (d_clock (lp_d l)) k) [mkKev 0 false (r_stop r)] = Ok (k', delay).
Proof.
  intros fuel wr l now p k t T r l' Hp Hd Hu Hk HT Ht L Hs Hr H.
  destruct (C84_covered _ _ _ _ _ _ _ _ Hp Hd Hu Hk HT Ht L) as (D & HD & L1 & L2).
  destruct (C46_timer _ _ _ _ _ _ Hp Hd Hs ltac:(lia) H) as (more & E & F). cbv zeta in F. rewrite HD in F.
  replace (D <=? r_stop r)%Z with true in F by lia. destruct F as (newer & delay & -> & _ & _).
  exists newer, delay.
  destruct (prompt_inv _ _ _ _ Hp) as (_ & _ & C). destruct (C p k Hu Hk) as [Ha _].
  pose proof (prompt_timer _ _ _ _ Hp Hd) as [T1 T2]. rewrite HD in T2. destruct T2 as (_ & _ & T2 & _).
  apply round_cases in H as [[_ Hd']|(_ & l1 & l2 & E1 & E2 & H)]; [congruence|].
  subst now. rewrite T2 in E1.
  replace ((0 <? D - r_start r) && (D - r_start r <=? r_stop r - r_start r))%Z%bool with true in E1
    by (symmetry; apply andb_true_iff; rewrite Z.ltb_lt, Z.leb_le; lia).
  unfold call in E1. destruct (event_handler fuel wr EvTimeout (r_stop r) (lp_d l)) as [[d1 t1]| | |] eqn:E3; cbn [bind] in E1; try discriminate E1.
  apply Ok_inj in E1. subst l1.
  assert (G : exists k', kbd_process_events fuel (set_k_clock (d_clock (lp_d l)) k) [mkKev 0 false (r_stop r)] = Ok (k', t1)).
  { unfold event_handler in E3. cbn [d_active set_d_times] in E3. rewrite Ha in E3. unfold run_kbd in E3 at 1.
    change (deref (set_d_times _ _ (lp_d l)) p) with (deref (lp_d l) p) in E3. rewrite Hk in E3. cbn [bind] in E3.
    cbn [d_clock set_d_times] in E3.
    destruct (kbd_process_events _ _ _) as [[k1 t2]| | |]; cbn [bind] in E3; try discriminate E3.
    destruct (deliver_all _ _ _ _ _) as [d2| | |]; cbn [bind] in E3; try discriminate E3.
    apply Ok_inj, pair_equal_spec in E3 as [_ <-]. now exists k1. }
  destruct G as [k' G].
  (* the call at the end of the new ones is this one *)
  assert (Q : exists more, lp_calls l' = more ++ (lp_d l, EvTimeout, r_stop r, t1) :: lp_calls l).
  { pose proof (both_reads _ _ _ _ _ _ _ E2) as [_ (m1 & A1 & _)]. cbn [lp_calls] in A1.
    destruct H as [[_ ->]|(_ & l3 & l4 & E4 & E5 & ->)]; [now exists m1|].
    apply DaemonProofs.both_calls in E4; [|apply Forall_forall; intros e He; apply in_map_iff in He as ([[[c m] x] g] & <- & _); discriminate].
    destruct E4 as [_ (m2 & A2 & _)].
    pose proof (both_add _ _ _ _ _ _ E5) as [_ (m3 & A3 & _)]. exists (m3 ++ m2 ++ m1). cbn [lp_calls]. rewrite A3, A2, A1, !app_assoc. reflexivity. }
  destruct Q as [more Q]. rewrite <- app_assoc in E. cbn [app] in E. rewrite Q in E.
  assert (X : delay = t1).
  { apply (f_equal (@rev _)) in E. rewrite !rev_app_distr in E. cbn [rev] in E. rewrite <- !app_assoc in E. apply app_inv_head in E.
    injection E as E. auto. }
  subst delay. exists k'. split; [|exact G]. rewrite Q. f_equal. apply (app_inv_tail _ _ _ E).
Qed.

(* ---- with two keyboards -------------------------------------------------------------- *)
Fixpoint chained (now : Z) (rs : list round) : option Z :=
  match rs with
  | [] => Some now
  | r :: rest => if ((r_start r =? now) && (now <=? r_stop r))%Z%bool then chained (r_stop r) rest else None
  end.
Lemma loop_prompt fuel wr rs : forall l l' now stop, prompt fuel wr l now -> chained now rs = Some stop ->
  loop fuel wr rs l = Ok l' -> prompt fuel wr l' stop.
Proof.
  induction rs as [|r rs IH]; cbn [loop chained]; intros l l' now stop Hp Hc H.
  - apply Ok_inj in H. injection Hc as <-. now subst.
  - destruct ((r_start r =? now) && (now <=? r_stop r))%Z%bool eqn:E; [|discriminate Hc]. apply andb_true_iff in E as [A B].
    destruct (loop_round fuel wr r l) as [l1| | |] eqn:E1; cbn [bind] in H; try discriminate H.
    eapply IH; [|exact Hc|exact H]. apply (prompt_round fuel wr r l l1 now); auto; lia.
Qed.
Lemma prompt_ex texts devs rs stop (P : lstate -> bool) : chained 1 rs = Some stop ->
  (match simulate 50 all_ok texts devs 1 rs with Ok l => P l | _ => false end) = true ->
  exists l, prompt 50 all_ok l stop /\ P l = true.
Proof.
  intros C H. destruct (simulate _ _ _ _ _ _) as [l| | |] eqn:E; try discriminate H. exists l. split; [|exact H].
  unfold simulate in E. destruct (Daemon.start _ _ _ _ _ _) as [l0| | |] eqn:E0; cbn [bind] in E; try discriminate E.
  eapply loop_prompt; [|exact C|exact E]. eapply prompt_start; [|exact E0]. lia.
Qed.
(* a keyboard and another device, each with a configuration of its own *)
Definition text_of (ls : list string) : str := concat (map (fun l => bs l ++ [10]) ls).
Definition first_text : str := Eval vm_compute in text_of ["[ids]"; "1234:5678"; "[main]"; "a = overloadt(shift, b, 200)"]%string.
Definition second_text : str := Eval vm_compute in text_of ["[ids]"; "aaaa:bbbb"; "[main]"]%string.
Definition other_device (caps : N) : device := mkDev true false caps false (bs "aaaa:bbbb") (mkAxes 0 0) None.
Definition forgotten (l : lstate) : bool :=
  (negb (lp_dead l) && match deadline (lp_calls l) with None => true | Some _ => false end
   && existsb (fun k => (p_code (k_pend k) =? 30) && (p_expire (k_pend k) =? 210)%Z) (d_ents (lp_d l)))%bool.
Lemma forgotten_ok l : forgotten l = true -> lp_dead l = false /\ deadline (lp_calls l) = None
  /\ exists k, In k (d_ents (lp_d l)) /\ p_code (k_pend k) = 30 /\ SpecTimer.deadline k 210.
Proof.
  unfold forgotten. rewrite !andb_true_iff, negb_true_iff. intros [[A B] C]. split; [exact A|]. split; [now destruct (deadline (lp_calls l))|].
  apply existsb_exists in C as (k & Hk & X). apply andb_true_iff in X as [X Y]. apply N.eqb_eq in X. apply Z.eqb_eq in Y.
  exists k. split; [exact Hk|]. split; [exact X|]. rewrite <- Y. apply SpecTimer.dl_key. congruence.
Qed.
(* "A timer of a keyboard is served when it is due" is false with two keyboards: a is
   pressed at 10 on the first, to be decided at 210, x at 50 on the second; the loop then
   waits without a limit, and at 100000 the key of the first is still undecided. *)
Theorem C84_other_key_refuted : exists l k, prompt 50 all_ok l 100000 /\ lp_dead l = false /\ deadline (lp_calls l) = None
  /\ In k (d_ents (lp_d l)) /\ p_code (k_pend k) = 30 /\ SpecTimer.deadline k 210.
Proof.
  destruct (prompt_ex [first_text; second_text] [a_keyboard; other_device CAP_KEYBOARD]
    [reading 1 10 [key 30 1] []; reading 10 50 [] [key 45 1]; reading 50 100000 [] []] 100000 forgotten) as (l & R & H).
  - reflexivity.
  - vm_compute. reflexivity.
  - apply forgotten_ok in H as (A & B & k & C & D & E). exists l, k. auto 10.
Qed.
Definition moved (c : dstate * event * Z * Z) : bool :=
  match c with
  | (_, EvDev 1 de, _, _) => match de_type de with DevMove => true | _ => false end
  | _ => true
  end.
(* A mouse with a configuration of its own that merely moves is enough: it becomes the
   keyboard used last, and the timer event of the key goes to it. *)
Theorem C84_mouse_refuted : exists l k, prompt 50 all_ok l 100000 /\ lp_dead l = false /\ deadline (lp_calls l) = None
  /\ In k (d_ents (lp_d l)) /\ p_code (k_pend k) = 30 /\ SpecTimer.deadline k 210
  /\ Forall (fun c => moved c = true) (lp_calls l).
Proof.
  destruct (prompt_ex [first_text; second_text] [a_keyboard; other_device CAP_MOUSE]
    [reading 1 10 [key 30 1] []; reading 10 50 [] [REvent (mkIev 2 0 5)]; reading 50 210 [] []; reading 210 100000 [] []] 100000
    (fun l => forgotten l && forallb moved (lp_calls l))) as (l & R & H).
  - reflexivity.
  - vm_compute. reflexivity.
  - apply andb_true_iff in H as [H M]. apply forgotten_ok in H as (A & B & k & C & D & E). exists l, k. repeat (split; [assumption|]).
    apply Forall_forall. intros c Hc. rewrite forallb_forall in M. auto.
Qed.
(* The hypotheses of the theorems are met: the same without the second device. *)
Definition using_first (l : lstate) : bool :=
  match lp_calls l with
  | (d, ev, ts, _) :: _ => runs_engine d ev && (ts =? 10)%Z
      && match whose d ev with
         | Some p => match deref (lp_d l) p with
                     | Ok k => (p_code (k_pend k) =? 30) && (p_expire (k_pend k) =? 210)%Z
                     | _ => false end
         | None => false end
  | [] => false
  end.
Example C84_example : exists l p k, prompt 50 all_ok l 10 /\ lp_dead l = false /\ in_use p (lp_calls l)
  /\ deref (lp_d l) p = Ok k /\ latest (lp_calls l) = Some 10%Z /\ SpecTimer.deadline k 210.
Proof.
  destruct (prompt_ex [first_text; second_text] [a_keyboard; other_device CAP_MOUSE] [reading 1 10 [key 30 1] []] 10
     (fun l => negb (lp_dead l) && using_first l)) as (l & R & H).
  - reflexivity.
  - vm_compute. reflexivity.
  - apply andb_true_iff in H as [H1 H]. apply negb_true_iff in H1. unfold using_first in H.
    destruct (lp_calls l) as [|[[[d ev] ts] x] r] eqn:E; [discriminate H|]. rewrite !andb_true_iff in H. destruct H as [[A B] C].
    destruct (whose d ev) as [p|] eqn:W; [|discriminate C]. destruct (deref (lp_d l) p) as [k| | |] eqn:K; try discriminate C.
    apply andb_true_iff in C as [X Y]. apply N.eqb_eq in X. apply Z.eqb_eq in Y. apply Z.eqb_eq in B.
    exists l, p, k. split; [exact R|]. split; [exact H1|]. split; [rewrite E; cbn [in_use]; now rewrite A|]. split; [exact K|].
    split; [rewrite E; cbn [latest]; rewrite A; now subst|]. rewrite <- Y. apply SpecTimer.dl_key. congruence.
Qed.
Definition C84_all := (C84_covered, C84_served, C84_other_key_refuted, C84_mouse_refuted, C84_example).
Print Assumptions C84_all.
