(* The answers of the daemon and what the command line client does with them.  No proofs
   in this file.  As in Client.v what the system returns is a parameter. *)
From Coq Require Import String.
From Verif Require Import Base Types Str Daemon Client.
Local Open Scope N_scope.
Local Open Scope list_scope.
Local Notation length := List.length.

(* daemon.c:295-304 (send_success): a zeroed message of type IPC_SUCCESS (keyd.h:75) *)
Definition success_bytes : list N := le 4 0 ++ le 4 0 ++ repeat 0 MAX_IPC ++ le 8 0.
(* daemon.c:306-320 (send_fail); [text] is the text after formatting, of which vsnprintf
   keeps what fits and returns the whole length *)
Definition fail_bytes (text : str) : list N :=
  let kept := firstn (MAX_IPC - 1) text in
  le 4 1 ++ le 4 0 ++ (kept ++ repeat 0 (MAX_IPC - length kept)) ++ le 8 (N.of_nat (length text)).
(* daemon.c:302, 316: how the answer is written; closing the connection is left out *)
Definition send_answer (ws : list (option nat)) (ok : bool) (text : str) : io (list N) :=
  xwrite ws (if ok then success_bytes else fail_bytes text) [].

(* What the system does with the calls of one ipc_exec: the writes to the connection, the
   reads from it, the writes of the text and of the newline to standard output. *)
Record talk := mkTalk { t_send : list (option nat); t_recv : list (option (list N));
                        t_text : list (option nat); t_line : list (option nat) }.
(* keyd.c:27-37 (ipc_exec from the connection on): sent, printed, "was it IPC_FAIL".  The
   text is written from the data field at offset 8; a size beyond the struct reads outside
   of it. *)
Definition exchange (m : imsg) (x : talk) : io (list N * list N * bool) :=
  io_bind (xwrite (t_send x) (msg_bytes m) []) (fun sent =>
  io_bind (xread (t_recv x) MSG_SIZE []) (fun got =>
    let sz := unle (skipn (8 + MAX_IPC) got) in
    let failed := unle (firstn 4 got) =? 1 in
    if sz =? 0 then IoDone (sent, [], failed)
    else if N.of_nat (MSG_SIZE - 8) <? sz then IoUB
    else io_bind (xwrite (t_text x) (firstn (N.to_nat sz) (skipn 8 got)) []) (fun p =>
         io_bind (xwrite (t_line x) [10] []) (fun q => IoDone (sent, p ++ q, failed))))).

(* keyd.c:129-162 (cmd_do, input): sent, printed, returned *)
Definition text_command (junk : list N) (t : itype) (args : list str) (stdin : list (option (list N))) (x : talk)
  : io (list N * list N * Z) :=
  io_bind (text_message junk t args stdin) (fun m =>
  io_bind (exchange m x) (fun '(s, p, failed) => IoDone (s, p, if failed : bool then 1%Z else 0%Z))).
(* keyd.c:205-210 (reload): the result of ipc_exec is not looked at.  memcpy from NULL of
   no bytes is taken to do nothing. *)
Definition reload_command (junk : list N) (x : talk) : io (list N * list N * Z) :=
  io_bind (ipc_message junk IReload [] 0) (fun m =>
  io_bind (exchange m x) (fun '(s, p, _) => IoDone (s, p, 0%Z))).
(* keyd.c:84-98 (add_bindings): one exchange per argument *)
Fixpoint bind_loop (junk : list N) (args : list str) (xs : list talk) (ret : Z) : io (list (list N) * list N * Z) :=
  match args with
  | [] => IoDone ([], [], ret)
  | a :: r =>
      match xs with
      | [] => IoMore
      | x :: xs' =>
          io_bind (ipc_message junk IBind a 0) (fun m =>
          io_bind (exchange m x) (fun '(s, p, failed) =>
          io_bind (bind_loop junk r xs' (if failed : bool then (-1)%Z else ret)) (fun '(ss, ps, ret') =>
            IoDone (s :: ss, p ++ ps, ret'))))
      end
  end.
Definition bind_command (junk : list N) (args : list str) (xs : list talk) : io (list (list N) * list N * Z) :=
  io_bind (bind_loop junk args xs 0%Z) (fun '(ss, ps, ret) =>
    IoDone (ss, ps ++ (if Z.eqb ret 0 then bs "Success" ++ [10] else []), ret)).

(* keyd.c:164-177: the message layer_listen sends *)
Definition listen_message : imsg := mkMsg IListen 0 (repeat 0 MAX_IPC) 0.
(* One turn of its loop (keyd.c:178-202): poll fails; standard output is closed; nothing;
   the connection is read (None is an error, no bytes the end), the writes of what came. *)
Inductive turn := TFail | TClosed | TIdle | TRead (r : option (list N)) (ws : list (option nat)).
(* the bytes xwrite (util.c:3-16) handed over so far, also if it ended the process *)
Fixpoint handed (rs : list (option nat)) (buf : list N) : list N :=
  match buf with
  | [] => []
  | _ => match rs with Some n :: r => firstn n buf ++ handed r (skipn n buf) | _ => [] end
  end.
Fixpoint listen_loop (ts : list turn) (out : list N) : list N * io Z :=
  match ts with
  | [] => (out, IoMore)
  | TFail :: _ => (out, IoExit)
  | TClosed :: _ => (out, IoDone (-1)%Z)
  | TIdle :: r => listen_loop r out
  | TRead None _ :: _ | TRead (Some []) _ :: _ => (out, IoDone (-1)%Z)
  | TRead (Some b) ws :: r =>
      match xwrite ws b [] with
      | IoDone _ => listen_loop r (out ++ handed ws b)
      | IoExit => (out ++ handed ws b, IoExit)
      | IoUB => (out ++ handed ws b, IoUB)
      | IoMore => (out ++ handed ws b, IoMore)
      end
  end.
