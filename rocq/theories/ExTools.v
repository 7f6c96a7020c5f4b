(* Tools for the examples beside the property theorems: concrete executions found by
   computation. *)
From Coq Require Import String.
From Verif Require Import Base Lib Keys Types MacroExec Kbd Config Steps Hist SpecTrace SpecMods SpecLookup
  SpecHist SpecActions LookupProofs.
Local Open Scope list_scope.
Local Open Scope N_scope.

Definition anyc (_ : config) : Prop := True.

(* the press of a ready key bound to d *)
Definition press_check (k : kbd) (code : N) (time : Z) (d : desc) (dl : nat) (f : kbd -> kbd -> Z -> bool) : bool :=
  readyb k code time && looksb k code d dl && okb (process_event 20 k code true time) (fun '(k', t) => f k k' t).
Lemma press_ex c batches code time d dl f :
  check_run c batches (fun k => press_check k code time d dl f) = true ->
  exists k k' t, run_to c k /\ reach anyc c k /\ ready k code time /\ resolves k code d dl
    /\ process_event 20 k code true time = Ok (k', t) /\ f k k' t = true.
Proof.
  intros H. apply check_run_ok in H as [k [Hr Hk]]. unfold press_check in Hk.
  rewrite !andb_true_iff in Hk. destruct Hk as [[H1 H2] H3]. apply okb_ok in H3 as [[k' t] [H3 H4]].
  assert (reach anyc c k) by (now apply run_to_reach).
  exists k, k', t. eauto 10 using readyb_ok, looksb_ok.
Qed.

(* any event in a state with nothing undecided *)
Definition event_check (k : kbd) (code : N) (pressed : bool) (time : Z) (f : kbd -> kbd -> Z -> bool) : bool :=
  idleb k && unchordedb k code && okb (process_event 20 k code pressed time) (fun '(k', t) => f k k' t).
Lemma event_ex c batches code pressed time f :
  check_run c batches (fun k => event_check k code pressed time f) = true ->
  exists k k' t, run_to c k /\ reach anyc c k /\ idle k /\ unchorded k code
    /\ process_event 20 k code pressed time = Ok (k', t) /\ f k k' t = true.
Proof.
  intros H. apply check_run_ok in H as [k [Hr Hk]]. unfold event_check in Hk.
  rewrite !andb_true_iff in Hk. destruct Hk as [[H1 H2] H3]. apply okb_ok in H3 as [[k' t] [H3 H4]].
  assert (reach anyc c k) by (now apply run_to_reach).
  exists k, k', t. eauto 10 using idleb_ok, unchordedb_ok.
Qed.
Definition timesb (a b : list Z) : bool := if list_eq_dec Z.eq_dec a b then true else false.
Lemma timesb_ok a b : timesb a b = true -> a = b.
Proof. unfold timesb. destruct (list_eq_dec _ _ _); auto; discriminate. Qed.
