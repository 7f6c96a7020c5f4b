(* C68: the daemon never hangs. *)
From Coq Require Import String ZArith Lia.
From Verif Require Import Base Lib Types Str Keys Kbd Config ParseWf SpecText SpecHist Match Device Daemon SpecDaemon SpecSafe SpecHalt DaemonProofs
  SafeProofs HaltProofs PropTerm PropListen PropDaemon PropSafe.
Local Open Scope list_scope.
Local Open Scope N_scope.
Local Notation length := List.length.

Lemma runs_sound fuel wr l : runs fuel wr l -> sound_l l.
Proof.
  intros R. apply Forall_forall. intros k Hk.
  destruct (C52_keyboards fuel wr l (lp_d l) k R (or_introl eq_refl) Hk) as (text & c & E & H).
  exact (reach_inv_cfg _ _ _ (config_parse_inv _ _ E) H).
Qed.
(* Whatever has happened to the daemon before: the handling of any event comes to an end, *)
Theorem C68_handler : forall fuel wr l ev ts, runs fuel wr l -> exists r, comes_to (fun f => event_handler f wr ev ts (lp_d l)) r.
Proof. intros fuel wr l ev ts R. destruct (handler_settles wr ev ts (lp_d l) (runs_sound _ _ _ R)) as (r & H & _). eauto. Qed.
(* as does every round of the loop, whatever the devices and clients deliver. *)
Theorem C68_round : forall fuel wr l r, runs fuel wr l -> exists x, comes_to (fun f => loop_round f wr r l) x.
Proof. intros fuel wr l r R. destruct (round_settles wr r l (runs_sound _ _ _ R)) as (x & H & _). eauto. Qed.
(* The same for the whole life of the process: any files, any devices, any sequence of rounds. *)
Theorem C68_life : forall wr texts devs grabs ts rs,
  exists x, comes_to (fun f => l <- start f wr texts devs grabs ts ;; loop f wr rs l) x.
Proof.
  intros wr texts devs grabs ts rs. destruct (settles_bind sound_l sound_l _ (fun f l => loop f wr rs l) (start_settles wr texts devs grabs ts)
    (fun l H => loop_settles wr rs l H)) as (x & H & _). eauto.
Qed.
(* So the states of the daemon do not depend on the depth of recursion allowed in the model. *)
Theorem C68_depth : forall fuel wr l, runs fuel wr l -> exists n, forall f, (n <= f)%nat -> runs f wr l.
Proof.
  induction 1 as [texts devs grabs ts l Hf H|r l l' Hr [n IH] Hf H].
  - destruct (start_settles wr texts devs grabs ts) as (x & (_ & [n C] & D) & _). exists n. intros f L. eapply runs_start; [exact Hf|].
    rewrite (C f L). destruct (D fuel) as [D1|D1]; [rewrite H in D1; discriminate D1|]. rewrite <- D1. exact H.
  - destruct (round_settles wr r l (runs_sound _ _ _ Hr)) as (x & (_ & [n' C] & D) & _). exists (Nat.max n n'). intros f L.
    eapply runs_round; [apply IH; lia|exact Hf|]. rewrite (C f) by lia. destruct (D fuel) as [D1|D1]; [rewrite H in D1; discriminate D1|].
    rewrite <- D1. exact H.
Qed.
(* With C67: in a quiet run every round has a next state, unless a limit is met. *)
Theorem C68_goes_on : forall fuel wr l r, steady fuel wr l -> ordinary r l ->
  exists x, comes_to (fun f => loop_round f wr r l) x /\ ((exists l', x = Ok l') \/ exists c, x = Crash c /\ stops r l c).
Proof.
  intros fuel wr l r S O. destruct (C68_round fuel wr l r (steady_runs _ _ _ S)) as [x C]. exists x. split; [exact C|].
  destruct C as (X & [n C] & _). specialize (C n (le_n n)). destruct (steady_settled _ _ _ S) as [S1 S2].
  pose proof (round_ends n wr r l S1 S2 O) as E. rewrite C in E. destruct x as [l'|c| |]; cbn [ends] in E; [eauto|eauto|contradiction|contradiction].
Qed.

(* ---- examples -------------------------------------------------------------------------------- *)
(* The run of C67_ex_steady at every depth; the state after the further round is the one computed. *)
Lemma depth_ex wr l r l' : loop_round 50 wr r l = Ok l' -> runs 50 wr l -> exists n, forall f, (n <= f)%nat -> runs f wr l /\ loop_round f wr r l = Ok l'.
Proof.
  intros H R. destruct (C68_depth 50 wr l R) as [n Hn]. destruct (C68_round 50 wr l r R) as (x & _ & [n' C] & D).
  exists (Nat.max n n'). intros f L. split; [apply Hn; lia|]. rewrite C by lia. destruct (D 50%nat) as [E|E]; [rewrite H in E; discriminate E|].
  rewrite <- E. exact H.
Qed.
Example C68_ex : exists l l' n, forall f, (n <= f)%nat -> runs f all_ok l /\ loop_round f all_ok (reading 20 30 [] [rel 2147000000]) l = Ok l'.
Proof.
  destruct C67_ex_steady as (l & S & _ & [l' H] & _). destruct (depth_ex all_ok l _ l' H (steady_runs _ _ _ S)) as [n N0]. exists l, l', n. exact N0.
Qed.
(* not every end is a good one: the dangling pointer of C51 *)
Example C68_ex_undefined : exists l, runs 50 all_ok l /\ comes_to (fun f => loop_round f all_ok (reading 20 300 [] []) l) UB.
Proof.
  destruct C51_dangling_refuted as (l & R & _ & H). exists l. split; [exact R|].
  destruct (C68_round 50 all_ok l (reading 20 300 [] []) R) as (x & C). pose proof C as (_ & _ & D). destruct (D 50%nat) as [E|E]; cbv beta in E; rewrite H in E; [discriminate E|].
  subst x. exact C.
Qed.
Definition C68_all := (C68_handler, C68_round, C68_life, C68_depth, C68_goes_on, C68_ex, C68_ex_undefined).
Print Assumptions C68_all.
