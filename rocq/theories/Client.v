(* The command line client (keyd.c) and the transfer of messages (util.c).  No proofs
   in this file.  What the system returns is a parameter: how much each write(2) takes,
   what each read(2) returns.  Connecting (ipc.c:26-45) is taken to succeed. *)
From Coq Require Import String.
From Verif Require Import Base Types KeyTable Str Daemon.
Local Open Scope N_scope.
Local Open Scope list_scope.
Local Notation length := List.length.

(* Result of a loop around system calls: done; the process exits or aborts; an access
   outside an object; still inside the loop when the given results are used up. *)
Inductive io (A : Type) := IoDone (a : A) | IoExit | IoUB | IoMore.
Arguments IoDone {A} a.
Arguments IoExit {A}.
Arguments IoUB {A}.
Arguments IoMore {A}.
Definition io_bind {A B} (x : io A) (f : A -> io B) : io B :=
  match x with IoDone a => f a | IoExit => IoExit | IoUB => IoUB | IoMore => IoMore end.

(* util.c:3-16 (xwrite): the bytes handed over; None is an error *)
Fixpoint xwrite (rs : list (option nat)) (buf sent : list N) : io (list N) :=
  match buf with
  | [] => IoDone sent
  | _ =>
      match rs with
      | [] => IoMore
      | None :: _ => IoExit
      | Some n :: r => xwrite r (skipn n buf) (sent ++ firstn n buf)
      end
  end.
(* util.c:18-31 (xread): read(2) returns at most what is asked for, nothing at the end
   of the stream *)
Fixpoint xread (rs : list (option (list N))) (sz : nat) (got : list N) : io (list N) :=
  match sz with
  | O => IoDone got
  | S _ =>
      match rs with
      | [] => IoMore
      | None :: _ => IoExit
      | Some b :: r => xread r (sz - length b) (got ++ b)
      end
  end.

(* keyd.h:73-89 (struct ipc_message) in memory: 4 bytes type, 4 bytes timeout, the data,
   8 bytes size (LP64, least significant byte first) *)
Fixpoint le (n : nat) (v : N) : list N :=
  match n with O => [] | S n' => v mod 256 :: le n' (v / 256) end.
Fixpoint unle (l : list N) : N :=
  match l with [] => 0 | b :: r => b + 256 * unle r end.
Definition MAX_IPC : nat := 4096.
Definition MSG_SIZE : nat := 4112.
Definition type_num (t : itype) : N :=
  match t with IBind => 2 | IInput => 3 | IMacro => 4 | IReload => 5 | IListen => 6 | IOther => 0 end.
Definition type_of (n : N) : itype :=
  if n =? 2 then IBind else if n =? 3 then IInput else if n =? 4 then IMacro
  else if n =? 5 then IReload else if n =? 6 then IListen else IOther.
Definition msg_bytes (m : imsg) : list N :=
  le 4 (type_num (i_type m)) ++ le 4 (i_timeout m) ++ i_data m ++ le 8 (i_sz m).
Definition msg_of (b : list N) : imsg :=
  mkMsg (type_of (unle (firstn 4 b))) (unle (firstn 4 (skipn 4 b))) (firstn MAX_IPC (skipn 8 b))
        (unle (skipn (8 + MAX_IPC) b)).

(* keyd.c:9-22: the message ipc_exec builds; [junk] is the uninitialised data field *)
Definition ipc_message (junk : list N) (t : itype) (data : str) (timeout : N) : io imsg :=
  if Nat.leb (length data) MAX_IPC
  then IoDone (mkMsg t timeout (data ++ skipn (length data) junk) (N.of_nat (length data)))
  else IoExit.

(* keyd.c:100-127 (read_input), from arguments: they are joined by blanks *)
Fixpoint read_args (args : list str) (buf : str) : io str :=
  match args with
  | [] => IoDone buf
  | a :: r =>
      let buf1 := buf ++ a ++ (match r with [] => [] | _ => [32] end) in
      if Nat.leb MAX_IPC (length buf1) then IoExit else read_args r buf1
  end.
(* ... and from standard input.  The result of read is kept in a size_t, so an error is
   not noticed and moves the buffer position back by one (before its start if nothing was
   read yet). *)
Fixpoint read_stdin (rs : list (option (list N))) (buf : str) : io str :=
  match rs with
  | [] => IoMore
  | None :: r => match buf with [] => IoUB | _ => read_stdin r (removelast buf) end
  | Some [] :: _ => IoDone buf
  | Some b :: r =>
      if Nat.eqb (length (buf ++ b)) MAX_IPC then IoExit else read_stdin r (buf ++ b)
  end.
Definition read_input (args : list str) (stdin : list (option (list N))) : io str :=
  match args with [] => read_stdin stdin [] | _ => read_args args [] end.

(* keyd.c:129-162 (cmd_do, input); [args] is argv+1 *)
Definition text_message (junk : list N) (t : itype) (args : list str) (stdin : list (option (list N))) : io imsg :=
  let '(timeout, args) :=
    match args with
    | o :: n :: r => if str_eqb o (bs "-t") then (Z.to_N (atoi n mod 4294967296)%Z, r) else (0, args)
    | _ => (0, args)
    end in
  io_bind (read_input args stdin) (fun text => ipc_message junk t text timeout).

(* keyd.c:84-98 (add_bindings): one message per argument; an oversized one aborts the
   client after the ones before it were sent *)
Fixpoint bind_messages (junk : list N) (args : list str) : list imsg * bool :=
  match args with
  | [] => ([], true)
  | a :: r =>
      match ipc_message junk IBind a 0 with
      | IoDone m => let '(ms, ok) := bind_messages junk r in (m :: ms, ok)
      | _ => ([], false)
      end
  end.
(* its exit status, from what the daemon answered: were all successful *)
Definition bind_status (answers : list bool) : bool :=
  fold_left (fun (ret ok : bool) => if ok then ret else false) answers true.

(* keyd.c:212-232 (commands): name, flag, long flag; keyd.c:251-260 (main) takes the first match *)
Inductive command := CHelp | CVersion | CMonitor | CBind | CInput | CDo | CListen | CReload | CListKeys.
Definition commands : list (str * str * str * command) :=
  [(bs "help", bs "-h", bs "--help", CHelp);
   (bs "version", bs "-v", bs "--version", CVersion);
   (bs "monitor", bs "-m", bs "--monitor", CMonitor);
   (bs "bind", bs "-e", bs "--expression", CBind);
   (bs "input", ([] : str), ([] : str), CInput);
   (bs "do", ([] : str), ([] : str), CDo);
   (bs "listen", ([] : str), ([] : str), CListen);
   (bs "reload", ([] : str), ([] : str), CReload);
   (bs "list-keys", ([] : str), ([] : str), CListKeys)].
Definition dispatch (arg : str) : command :=
  match find (fun '(n, f, l, _) => str_eqb n arg || str_eqb f arg || str_eqb l arg) commands with
  | Some (_, _, _, c) => c
  | None => CHelp
  end.

(* keyd.c:63-81 (list_keys): the lines printed *)
Definition list_keys : list str :=
  flat_map (fun e => match e with
    (n, a, s) => (match n with Some x => [x] | None => [] end) ++ (match a with Some x => [x] | None => [] end)
                 ++ (match s with Some x => [x] | None => [] end) end) keycode_table.
