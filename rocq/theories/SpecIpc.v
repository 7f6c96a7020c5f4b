(* What is expected of the lock and the socket (C73). *)
From Verif Require Import Base Ipc.

(* process i is at this point *)
Definition is_at (w : world) (i : nat) (c : pc) : Prop := exists o, In (i, mkProc c o) (w_procs w).
(* keyd, from the moment it may touch the socket on *)
Definition master (w : world) (i : nat) : Prop :=
  is_at w i PLocked \/ is_at w i PUnlinked \/ is_at w i PBound \/ is_at w i PListening \/ is_at w i PServing.
Definition serves (w : world) (i : nat) : Prop := is_at w i PServing.
(* a command that the daemon started is still running *)
Definition command_runs (w : world) : Prop := exists i, is_at w i PCommand.

(* every program that is to be run can be *)
Definition execs (l : list act) : Prop := forall i, ~ In (AFork i false) l.
(* the process is not ended *)
Definition spared (i : nat) (l : list act) : Prop := ~ In (ADie i) l.
(* chmod and unlink succeed *)
Definition permitted (l : list act) : Prop := forall i u, ~ In (ANext i u false) l.
