(* What the daemon owes its clients (C72). *)
From Verif Require Import Base Types Kbd Daemon.
Local Open Scope N_scope.

(* the answers sent: to whom, and whether they say success; newest first *)
Fixpoint answers (out : list vev) : list (nat * bool) :=
  match out with
  | [] => []
  | VReply con ok :: r => (con, ok) :: answers r
  | _ :: r => answers r
  end.

(* the request is within the limits of the protocol *)
Definition allowed (m : imsg) : Prop := i_sz m < 4096 /\ i_timeout m <= 1000000.

(* the event is a request that has to be answered; a listener that is taken gets
   messages about layers instead *)
Inductive owed : event -> nat -> Prop :=
| owed_refused con m texts grabs : ~ allowed m -> owed (EvClient con m texts grabs) con
| owed_served con m texts grabs : i_type m <> IListen -> owed (EvClient con m texts grabs) con.

(* the requests that have to be answered among the calls of the handler, in their order *)
Inductive requests : list (dstate * event * Z * Z) -> list nat -> Prop :=
| rq_none : requests [] []
| rq_owed d ev ts t calls con cons : owed ev con -> requests calls cons ->
    requests ((d, ev, ts, t) :: calls) (con :: cons)
| rq_other d ev ts t calls cons : (forall con, ~ owed ev con) -> requests calls cons ->
    requests ((d, ev, ts, t) :: calls) cons.
