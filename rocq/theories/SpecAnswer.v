(* Specification vocabulary for the answers a client gets (C82). *)
From Coq Require Import String.
From Verif Require Import Base Types SpecNotation Daemon Client SpecCli Answer.
Local Open Scope N_scope.
Local Open Scope list_scope.
Local Notation length := List.length.

(* An answer: success, or a failure with a text.  The text is one of the fixed ones or
   that of errstr (log.c:9), which has 2048 bytes. *)
Inductive answer := Done | Failed (text : str).
Definition worded (a : answer) : Prop :=
  match a with Done => True | Failed text => N.of_nat (length text) < 2048 /\ ~ In 0 text end.
Definition good_answer (a : answer) : bool := match a with Done => true | Failed _ => false end.
Definition wording (a : answer) : str := match a with Done => [] | Failed text => text end.
(* what the user sees of it: the text on a line of its own, nothing if there is none *)
Definition shown (a : answer) : list N :=
  match a with Failed (b :: r) => b :: r ++ [10] | _ => [] end.
(* exit status as the shell sees it *)
Definition exit_code (z : Z) : Z := (z mod 256)%Z.
(* The client hears the answer [a]: the daemon wrote it in whatever amounts, and the
   client's reads return it in whatever pieces. *)
Definition hears (x : talk) (a : answer) : Prop :=
  exists ws sent cs later, send_answer ws (good_answer a) (wording a) = IoDone sent /\
    pieces sent cs /\ t_recv x = map Some cs ++ later.
(* the system takes all the client writes *)
Definition obliging (x : talk) (m : imsg) (a : answer) : Prop :=
  (exists ns, t_send x = map Some ns /\ takes_all ns (msg_bytes m)) /\
  (exists ns, t_text x = map Some ns /\ takes_all ns (wording a)) /\
  (exists ns, t_line x = map Some ns /\ takes_all ns [10]).

(* ---- keyd listen ---- *)
(* what was read, up to the end of the stream or of the program *)
Fixpoint received (ts : list turn) : list N :=
  match ts with
  | TRead (Some (b :: r)) _ :: ts' => (b :: r) ++ received ts'
  | TIdle :: ts' => received ts'
  | _ => []
  end.
Definition prefix_of (a b : list N) : Prop := exists rest, b = a ++ rest.
(* standard output takes everything *)
Definition taking (t : turn) : Prop :=
  match t with TRead (Some b) ws => exists ns, ws = map Some ns /\ takes_all ns b | _ => True end.
