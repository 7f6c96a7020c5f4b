(* C67: when the daemon's behaviour is undefined and when it aborts, in every run. *)
From Coq Require Import String ZArith Lia.
From Verif Require Import Base Lib Types Str Keys Kbd Config SpecText SpecHist Match Device Daemon SpecDaemon SpecSafe DaemonProofs SafeProofs
  Hist PropDaemon.
Local Open Scope list_scope.
Local Open Scope N_scope.
Local Notation length := List.length.

(* In a run during which no client bound a key in the middle of a chord, an event's handling is
   undefined in exactly the cases listed by [fault]. *)
Theorem C67_undefined : forall fuel wr l ev ts, runs fuel wr l -> Forall (fun x => ~ hasty x) (lp_calls l) -> in_table (lp_d l) ev ->
  (event_handler fuel wr ev ts (lp_d l) = UB <-> fault (lp_d l) ev).
Proof.
  intros fuel wr l ev ts R F T. split; [|apply fault_ub]. intros E.
  pose proof (handler_ends fuel wr ev ts (lp_d l) (runs_fit _ _ _ R F) (proj1 (runs_ptr _ _ _ R)) T) as H. rewrite E in H. exact H.
Qed.
(* It aborts only in the cases listed by [aborts]. *)
Theorem C67_abort : forall fuel wr l ev ts x, runs fuel wr l -> Forall (fun x => ~ hasty x) (lp_calls l) -> in_table (lp_d l) ev ->
  event_handler fuel wr ev ts (lp_d l) = Crash x -> aborts ev x.
Proof.
  intros fuel wr l ev ts x R F T E.
  pose proof (handler_ends fuel wr ev ts (lp_d l) (runs_fit _ _ _ R F) (proj1 (runs_ptr _ _ _ R)) T) as H. rewrite E in H. exact H.
Qed.
(* Starting is undefined exactly if parsing one of the files is; it aborts only if parsing
   one of them does. *)
Theorem C67_start : forall fuel wr texts devs grabs ts,
  (start fuel wr texts devs grabs ts = UB <-> exists pre text post,
     texts = pre ++ text :: post /\ Forall (fun t => exists o, config_parse t = Ok o) pre /\ config_parse text = UB) /\
  (forall x, start fuel wr texts devs grabs ts = Crash x -> exists pre text post,
     texts = pre ++ text :: post /\ Forall (fun t => exists o, config_parse t = Ok o) pre /\ config_parse text = Crash x).
Proof.
  intros fuel wr texts devs grabs ts. pose proof (start_ends fuel wr texts devs grabs ts) as H. split.
  - split; [intros E; rewrite E in H; exact H|]. intros (pre & text & post & E & F & U). eapply start_ub; eauto.
  - intros x E. rewrite E in H. exact H.
Qed.
(* As long as the files are not read again, nobody binds keys and the devices' values are
   ordinary, nothing is undefined; the daemon ends only at the limits of the engine, at a
   client's broken UTF-8 and at the 65th device. *)
Theorem C67_steady : forall fuel wr r l, steady fuel wr l -> ordinary r l ->
  loop_round fuel wr r l <> UB /\ forall x, loop_round fuel wr r l = Crash x -> stops r l x.
Proof.
  intros fuel wr r l S O. destruct (steady_settled _ _ _ S) as [S1 S2]. pose proof (round_ends fuel wr r l S1 S2 O) as H.
  split; [intros E|intros x E]; rewrite E in H; exact H.
Qed.

(* ---- examples -------------------------------------------------------------------------------- *)
Definition scroll_text : str := Eval vm_compute in
  concat (map (fun l => bs l ++ [10]) ["[ids]"; "*"; "[main]"; "a = scroll(5)"; "c = overload(shift, d)"]%string).
Definition rel (v : Z) : rd := REvent (mkIev 2 0 v).
Lemma simulate_calm fuel wr texts devs ts (rs : list round) l : Forall (fun r => r_added r = []) rs -> Forall (fun r => r_clients r = []) rs ->
  simulate fuel wr texts devs ts rs = Ok l -> Forall (fun x => ~ hasty x) (lp_calls l).
Proof.
  intros F G E.
  unfold simulate in E. destruct (start _ _ _ _ _ _) as [l0| | |] eqn:E0; cbn [bind] in E; try discriminate E.
  assert (H0 : Forall (fun x => ~ hasty x) (lp_calls l0)).
  { clear E. unfold start in E0. destruct (reload _ _ _) as [d| | |]; cbn [bind] in E0; try discriminate E0.
    destruct (calls _ _ _ _ _) as [l1| | |] eqn:E; cbn [bind] in E0; try discriminate E0. apply Ok_inj in E0. subst l0. cbn [lp_calls].
    eapply (BoundProofs.calls_at _ _ (fun _ cs => Forall (fun x => ~ hasty x) cs) (fun ev => forall a b c e, ev <> EvClient a b c e)) in E;
      [exact E| | |constructor].
    - intros ev t0 d0 d1 t cs Hc _ Hcs. constructor; [|exact Hcs]. destruct ev as [| | | |a b c e]; try (intros []). now destruct (Hc a b c e).
    - apply Forall_forall. intros e He. apply in_map_iff in He as (i & <- & _). discriminate. }
  clear E0. revert l0 H0 E. induction rs as [|r rs IH]; intros l0 H0 E; cbn [loop] in E; [apply Ok_inj in E; now subst|].
  destruct (loop_round _ _ _ _) as [l1| | |] eqn:E1; cbn [bind] in E; try discriminate E.
  inversion F as [|? ? F1 F2]; subst. inversion G as [|? ? G1 G2]; subst. apply (IH F2 G2 l1); [|exact E].
  eapply (BoundProofs.round_at _ _ (fun _ cs => Forall (fun x => ~ hasty x) cs) (fun ev => forall a b c e, ev <> EvClient a b c e) (fun _ => True)) in E1;
    [exact E1| | | | | | | | |exact H0]; try (intros; assumption).
  - intros ev t0 d0 d1 t cs Hc _ Hcs. constructor; [|exact Hcs]. destruct ev as [| | | |a b c e]; try (intros []). now destruct (Hc a b c e).
  - intros dv g t0 d0 d1 t cs _ _ Hcs. constructor; [intros []|exact Hcs].
  - repeat split; discriminate.
  - rewrite F1. constructor.
  - rewrite G1. constructor.
Qed.
Lemma safe_ex text (rs : list round) (P : lstate -> bool) :
  Forall (fun r => r_added r = []) rs -> Forall (fun r => r_clients r = []) rs ->
  (match simulate 50 all_ok [text] two 1 rs with Ok l => P l | _ => false end) = true ->
  exists l, runs 50 all_ok l /\ Forall (fun x => ~ hasty x) (lp_calls l) /\ P l = true.
Proof.
  intros F G H. destruct (simulate 50 all_ok [text] two 1 rs) as [l| | |] eqn:E; try discriminate H.
  exists l. split; [exact (simulate_runs 50 all_ok [text] two 1 rs l two_unbound F E)|]. split; [|exact H].
  exact (simulate_calm 50 all_ok [text] two 1 rs l F G E).
Qed.
(* Scroll mode on, one step to the right, then 2147483647 steps: the counter overflows. *)
Theorem C67_overflow_refuted : exists l, runs 50 all_ok l /\ Forall (fun x => ~ hasty x) (lp_calls l) /\
  loop_round 50 all_ok (reading 20 30 [] [rel 2147483647]) l = UB.
Proof.
  destruct (safe_ex scroll_text [reading 1 10 [key 30 1] []; reading 10 20 [] [rel 1]]
    (fun l => match loop_round 50 all_ok (reading 20 30 [] [rel 2147483647]) l with UB => true | _ => false end)) as (l & R & F & H).
  - no_added.
  - no_added.
  - vm_compute. reflexivity.
  - exists l. split; [exact R|]. split; [exact F|]. destruct (loop_round _ _ _ _); auto; discriminate H.
Qed.
(* A position from a device whose axes have no range: a division by zero. *)
Theorem C67_axes_refuted : exists l, runs 50 all_ok l /\ Forall (fun x => ~ hasty x) (lp_calls l) /\
  loop_round 50 all_ok (reading 1 10 [REvent (mkIev 3 0 7)] []) l = UB.
Proof.
  destruct (safe_ex scroll_text []
    (fun l => match loop_round 50 all_ok (reading 1 10 [REvent (mkIev 3 0 7)] []) l with UB => true | _ => false end)) as (l & R & F & H).
  - no_added.
  - no_added.
  - vm_compute. reflexivity.
  - exists l. split; [exact R|]. split; [exact F|]. destruct (loop_round _ _ _ _); auto; discriminate H.
Qed.
(* a fault that is reached: the same overflow at the handler *)
Example C67_ex_fault : exists l, runs 50 all_ok l /\ Forall (fun x => ~ hasty x) (lp_calls l) /\
  fault (lp_d l) (EvDev 1 (mkDe DevMove 0 0 2147483647 0)).
Proof.
  destruct (safe_ex scroll_text [reading 1 10 [key 30 1] []; reading 10 20 [] [rel 1]]
    (fun l => Nat.ltb 1 (length (d_devs (lp_d l))) &&
       match event_handler 50 all_ok (EvDev 1 (mkDe DevMove 0 0 2147483647 0)) 30 (lp_d l) with UB => true | _ => false end)) as (l & R & F & H).
  - no_added.
  - no_added.
  - vm_compute. reflexivity.
  - exists l. split; [exact R|]. split; [exact F|]. apply Bool.andb_true_iff in H as [H1 H2]. apply Nat.ltb_lt in H1.
    apply (C67_undefined 50 all_ok l _ 30%Z R F); [exact H1|]. destruct (event_handler _ _ _ _ _); auto; discriminate H2.
Qed.

Lemma simulate_steady fuel wr texts devs ts (rs : list round) l : Forall unbound devs ->
  Forall (fun r => r_added r = [] /\ r_clients r = [] /\ forall i ax, Forall (modest ax) (r_reads r i)) rs ->
  simulate fuel wr texts devs ts rs = Ok l -> steady fuel wr l.
Proof.
  intros U F E. unfold simulate in E. destruct (start _ _ _ _ _ _) as [l0| | |] eqn:E0; cbn [bind] in E; try discriminate E.
  assert (S : steady fuel wr l0) by (eapply steady_start; eauto). clear E0. revert l0 S E.
  induction F as [|r rs (A & B & C) F IH]; intros l0 S E; cbn [loop] in E; [apply Ok_inj in E; now subst|].
  destruct (loop_round _ _ _ _) as [l1| | |] eqn:E1; cbn [bind] in E; try discriminate E. apply (IH l1); [|exact E].
  eapply steady_round; [exact S| |exact E1]. constructor; [auto|rewrite B; constructor|rewrite A; constructor].
Qed.
Lemma steady_ex text (rs : list round) (P : lstate -> bool) :
  Forall (fun r => r_added r = [] /\ r_clients r = [] /\ forall i ax, Forall (modest ax) (r_reads r i)) rs ->
  (match simulate 50 all_ok [text] two 1 rs with Ok l => P l | _ => false end) = true ->
  exists l, steady 50 all_ok l /\ P l = true.
Proof.
  intros F H. destruct (simulate 50 all_ok [text] two 1 rs) as [l| | |] eqn:E; try discriminate H.
  exists l. split; [|exact H]. exact (simulate_steady 50 all_ok [text] two 1 rs l two_unbound F E).
Qed.
(* a client types a byte that begins a UTF-8 sequence and stops there *)
Definition cut : round := mkRound 20 30 (fun _ => []) [(7%nat, mkMsg IInput 0 [195] 1, [], fun _ => true)] [].
(* Scroll mode on and a little motion; then more motion is handled, and the broken text ends
   the process. *)
Example C67_ex_steady : exists l, steady 50 all_ok l /\
  ordinary (reading 20 30 [] [rel 2147000000]) l /\ (exists l', loop_round 50 all_ok (reading 20 30 [] [rel 2147000000]) l = Ok l') /\
  ordinary cut l /\ loop_round 50 all_ok cut l = Crash CUtf8.
Proof.
  destruct (steady_ex scroll_text [reading 1 10 [key 30 1] []; reading 10 20 [] [rel 1]]
    (fun l => match loop_round 50 all_ok (reading 20 30 [] [rel 2147000000]) l, loop_round 50 all_ok cut l with Ok _, Crash CUtf8 => true | _, _ => false end))
    as (l & S & H).
  - repeat apply Forall_cons; try apply Forall_nil; (split; [reflexivity|]; split; [reflexivity|]); intros [|[|i]] ax; cbn [reading r_reads];
      repeat apply Forall_cons; try apply Forall_nil; repeat split; cbn; try discriminate; lia.
  - vm_compute. reflexivity.
  - exists l. split; [exact S|]. split.
    { constructor; [|constructor|constructor]. intros [|[|i]] dv _; cbn [reading r_reads];
        repeat apply Forall_cons; try apply Forall_nil; repeat split; cbn; try discriminate; lia. }
    destruct (loop_round 50 all_ok (reading 20 30 [] [rel 2147000000]) l) as [l'| | |]; try discriminate H. split; [eauto|]. split.
    { constructor; [constructor| |constructor]. constructor; [split; discriminate|constructor]. }
    destruct (loop_round 50 all_ok cut l) as [|[]| |]; try discriminate H. reflexivity.
Qed.
Definition C67_all := (C67_undefined, C67_abort, C67_start, C67_steady, C67_overflow_refuted, C67_axes_refuted, C67_ex_fault, C67_ex_steady).
Print Assumptions C67_all.
