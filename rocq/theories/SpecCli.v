(* Specification vocabulary for the command line client (C56, C57). *)
From Coq Require Import String.
From Verif Require Import Base Types SpecNotation Daemon Client.
Local Open Scope N_scope.
Local Open Scope list_scope.
Local Notation length := List.length.

(* the arguments of a C program contain no NUL *)
Definition c_string (s : str) : Prop := ~ In 0 s.
(* a stream handed over in pieces *)
Definition pieces (bytes : list N) (cs : list (list N)) : Prop := concat cs = bytes.
(* the system takes the bytes in amounts [ns] *)
Definition takes_all (ns : list nat) (bytes : list N) : Prop := (length bytes <= fold_right plus 0 ns)%nat.
(* a message fits its struct *)
Definition fits (m : imsg) : Prop :=
  i_timeout m < 4294967296 /\ length (i_data m) = MAX_IPC /\ i_sz m < 18446744073709551616.
(* the documented commands with their flags *)
Definition documented : list (str * command) :=
  [(bs "help", CHelp); (bs "-h", CHelp); (bs "--help", CHelp); (bs "version", CVersion); (bs "-v", CVersion); (bs "--version", CVersion);
   (bs "monitor", CMonitor); (bs "-m", CMonitor); (bs "--monitor", CMonitor); (bs "bind", CBind); (bs "-e", CBind); (bs "--expression", CBind);
   (bs "input", CInput); (bs "do", CDo); (bs "listen", CListen); (bs "reload", CReload); (bs "list-keys", CListKeys)].
(* the time-out of a call: `-t N` before the text; decimal digits *)
Inductive timed : list str -> N -> list str -> Prop :=
| timed_none args : (forall n r, args <> bs "-t" :: n :: r) -> timed args 0 args
| timed_opt n ds r : ds <> [] -> Forall (fun c => 48 <= c <= 57) ds -> n = fold_left (fun a c => a * 10 + (c - 48)) ds 0 -> n <= 1000000 ->
    timed (bs "-t" :: ds :: r) n r.
