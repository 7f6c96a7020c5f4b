(* C01, C02: statements about the key event trace.  Vocabulary in SpecTrace.v,
   histories in Hist.v. *)
From Coq Require Import String.
From Verif Require Import Base Lib Keys Types MacroExec Kbd Config Steps Hist SpecTrace TraceProofs.
Local Open Scope N_scope.

(* C01: in every history (events, timer ticks, live rebinds) of every
   configuration, the events sent for a key that no multi-step macro names are
   press, release, press, ... *)
Theorem C01_key_events_alternate :
  forall c code k,
    reach (macros_avoid code) c k ->
    alternates true (key_history code (k_out k)).
Proof. exact alternation. Qed.
Print Assumptions C01_key_events_alternate.

Definition ex_text : str := bs "[main]
a = oneshot(shift)
b = overloadt(control, S-x, 100)
c+d = macro(e f)
g = layer(nav)
[nav:A]
h = S-x
".
Definition ex_cfg : config := cfg_of ex_text.
Definition ex_events : list kev :=
  [D 30 0; U 30 10; D 48 20; D 45 30; U 45 40; U 48 60; D 34 70; D 35 80; U 34 90; U 35 100].

Lemma ex_avoid : macros_avoid 42 ex_cfg.
Proof.
  unfold macros_avoid. intros m e Hm _ He.
  vm_compute in Hm. destruct Hm as [<-|[]].
  cbn in He. unfold element_names.
  destruct He as [<-|[<-|[]]]; cbn [m_data m_type];
    (intros [H|[[_ [mask [H1 H2]]]|[H _]]]; [discriminate H| |discriminate H]);
    cbn in H1; repeat (destruct H1 as [H1|H1]; [try discriminate H1; injection H1 as <-; discriminate H2|]);
    contradiction.
Qed.

(* a history in which shift goes down and up several times *)
Example C01_example :
  exists k, reach (macros_avoid 42) ex_cfg k
            /\ key_history 42 (k_out k) = [true; false; true; false].
Proof.
  destruct (check_run_ok ex_cfg [ex_events]
    (fun k => if list_eq_dec bool_dec (key_history 42 (k_out k))
                   [true; false; true; false] then true else false))
    as [k [Hr Hk]].
  - vm_compute. reflexivity.
  - exists k. split.
    + apply run_to_reach; auto. exact ex_avoid.
    + destruct (list_eq_dec _ _ _); [assumption|discriminate].
Qed.

(* C02: noop and the external-mouse marker never reach the virtual keyboard. *)
Theorem C02_noop_never_sent :
  forall c code k p,
    code = K_NOOP \/ code = K_EXTERNAL_MOUSE ->
    reach (macros_avoid code) c k ->
    ~ In (OKey code p) (k_out k).
Proof. exact never_sent. Qed.
Print Assumptions C02_noop_never_sent.

(* ... in particular when it is bound, also inside other actions, or pressed. *)
Definition ex2_cfg : config := cfg_of (bs "[main]
a = noop
b = overload(shift, noop)
c = C-noop
d = macro(noop)
").
Example C02_example :
  exists k, reach (macros_avoid K_NOOP) ex2_cfg k
            /\ k_out k <> [] /\ k_last_simple k = 50%Z.
Proof.
  destruct (check_run_ok ex2_cfg [[D 30 0; U 30 10; D 48 20; U 48 30; D 46 40; U 46 45;
                                   D 195 48; U 195 50; D 32 60; U 32 70]]
    (fun k => match k_out k with [] => false | _ => (k_last_simple k =? 50)%Z end)) as [k [Hr Hk]].
  - vm_compute. reflexivity.
  - exists k. repeat split.
    + apply run_to_reach; auto. intros m e Hm Hs He.
      vm_compute in Hm. destruct Hm as [<-|[]]. exfalso. apply Hs. eexists; reflexivity.
    + destruct (k_out k); congruence.
    + destruct (k_out k); [discriminate|]. now apply Z.eqb_eq.
Qed.

(* The exception is real: a multi-step macro naming noop sends it. *)
Definition ex3_cfg : config := cfg_of (bs "[main]
a = macro(noop b)
").
Theorem C02_macro_sends_noop_refuted :
  exists c k, reach (fun _ => True) c k /\ In (OKey K_NOOP true) (k_out k).
Proof.
  exists ex3_cfg.
  destruct (check_run_ok ex3_cfg [[D 30 0]]
    (fun k => existsb (fun o => match o with OKey 195 true => true | _ => false end) (k_out k)))
    as [k [Hr Hk]].
  - vm_compute. reflexivity.
  - exists k. split.
    + now apply run_to_reach.
    + apply existsb_exists in Hk as [o [Hi Ho]]. destruct o as [c p| | |]; try discriminate.
      destruct c as [|c]; try discriminate.
      repeat (destruct c; try discriminate). destruct p; try discriminate. exact Hi.
Qed.
Print Assumptions C02_macro_sends_noop_refuted.
