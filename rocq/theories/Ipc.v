(* Several keyd processes on one system: the lock and the socket (ipc.c), the order of the
   start (daemon.c:600-606) and the processes that commands run in (keyboard.c:367-396).
   No proofs in this file.

   A process is known by a number that is not used again.  The descriptors of interest are
   those of the socket and of the lock file; both are named by the process that made them,
   because each process makes at most one of each.  A descriptor is inherited by fork and by
   exec (neither is opened with CLOEXEC), and what it refers to exists as long as one process
   has it.  A system call that fails ends the process (action [ADie]), except for the two
   whose result the code ignores. *)
From Coq Require Import PeanoNat.
From Verif Require Import Base.

(* what the process has done so far *)
Inductive pc :=
| PNew                 (* it has been started *)
| PSocket              (* ipc.c:49 socket *)
| POpened              (* ipc.c:63 open(lockpath) *)
| PLocked              (* ipc.c:70 flock *)
| PUnlinked            (* ipc.c:73 unlink *)
| PBound               (* ipc.c:74 bind *)
| PListening           (* ipc.c:79 listen *)
| PServing             (* ipc.c:84 chmod, and what follows *)
| PCommand.            (* a command, after exec *)
Record proc := mkProc { p_pc : pc; p_own : nat }.
Record world := mkW {
  w_procs : list (nat * proc);
  w_next : nat;                    (* the number of the next process *)
  w_lock : option nat;             (* the lock file was locked last through this description *)
  w_path : option (nat * N);       (* what SOCKET_PATH leads to and its permissions *)
  w_listen : list nat              (* the sockets on which listen was called *)
}.
Definition world0 : world := mkW [] 0 None None [].

(* has a descriptor of the socket, of the lock file *)
Definition has_sd (p : proc) : bool := match p_pc p with PNew => false | _ => true end.
Definition has_lock (p : proc) : bool := match p_pc p with PNew | PSocket => false | _ => true end.
(* flock: the lock counts while somebody has the descriptor through which it was taken *)
Definition lock_taken (w : world) : bool :=
  match w_lock w with
  | None => false
  | Some o => existsb (fun x => has_lock (snd x) && Nat.eqb (p_own (snd x)) o) (w_procs w)
  end.

Fixpoint find_proc (ps : list (nat * proc)) (i : nat) : option proc :=
  match ps with
  | [] => None
  | (j, p) :: r => if Nat.eqb j i then Some p else find_proc r i
  end.
Fixpoint set_pc (ps : list (nat * proc)) (i : nat) (c : pc) : list (nat * proc) :=
  match ps with
  | [] => []
  | (j, p) :: r => (j, if Nat.eqb j i then mkProc c (p_own p) else p) :: set_pc r i c
  end.
Definition drop (ps : list (nat * proc)) (i : nat) : list (nat * proc) :=
  filter (fun x => negb (Nat.eqb (fst x) i)) ps.

Inductive act :=
| AStart                           (* keyd is started *)
| ANext (i : nat) (umask : N) (ok : bool)  (* process i does the next step; ok is for unlink and chmod *)
| ADie (i : nat)                   (* process i ends, in whatever way *)
| AFork (i : nat) (exec : bool).   (* process i runs a command; whether execl succeeds *)

Definition to (w : world) (i : nat) (c : pc) : world :=
  mkW (set_pc (w_procs w) i c) (w_next w) (w_lock w) (w_path w) (w_listen w).
(* ipc.c:48-87 (ipc_create_server), daemon.c:602-604 *)
Definition next (w : world) (i : nat) (p : proc) (umask : N) (ok : bool) : world :=
  match p_pc p with
  | PNew => to w i PSocket
  | PSocket => to w i POpened
  | POpened =>
      if lock_taken w then mkW (drop (w_procs w) i) (w_next w) (w_lock w) (w_path w) (w_listen w)
      else mkW (set_pc (w_procs w) i PLocked) (w_next w) (Some (p_own p)) (w_path w) (w_listen w)
  | PLocked => mkW (set_pc (w_procs w) i PUnlinked) (w_next w) (w_lock w) (if ok then None else w_path w) (w_listen w)
  | PUnlinked =>
      match w_path w with
      | Some _ => mkW (drop (w_procs w) i) (w_next w) (w_lock w) (w_path w) (w_listen w)
      | None => mkW (set_pc (w_procs w) i PBound) (w_next w) (w_lock w) (Some (p_own p, N.ldiff 511 umask)) (w_listen w)
      end
  | PBound => mkW (set_pc (w_procs w) i PListening) (w_next w) (w_lock w) (w_path w) (p_own p :: w_listen w)
  | PListening =>
      mkW (set_pc (w_procs w) i PServing) (w_next w) (w_lock w)
          (match w_path w with Some (s, m) => Some (s, if ok then 432%N else m) | None => None end) (w_listen w)
  | PServing | PCommand => w
  end.
Definition act_step (w : world) (a : act) : world :=
  match a with
  | AStart => mkW ((w_next w, mkProc PNew (w_next w)) :: w_procs w) (S (w_next w)) (w_lock w) (w_path w) (w_listen w)
  | ANext i umask ok => match find_proc (w_procs w) i with Some p => next w i p umask ok | None => w end
  | ADie i => mkW (drop (w_procs w) i) (w_next w) (w_lock w) (w_path w) (w_listen w)
  | AFork i exec =>
      (* keyboard.c:373-395: the command runs in a grandchild; a grandchild whose execl fails
         returns and goes on with the code of the daemon *)
      match find_proc (w_procs w) i with
      | Some p =>
          match p_pc p with
          | PServing => mkW ((w_next w, mkProc (if exec then PCommand else PServing) (p_own p)) :: w_procs w)
                            (S (w_next w)) (w_lock w) (w_path w) (w_listen w)
          | _ => w
          end
      | None => w
      end
  end.
Definition acts (w : world) (l : list act) : world := fold_left act_step l w.

(* connect(2) to SOCKET_PATH succeeds for a user with the permission bits [bits] (write: 2) *)
Definition connects (w : world) (bits : N) : bool :=
  match w_path w with
  | Some (s, m) =>
      negb (N.land m bits =? 0)%N && existsb (Nat.eqb s) (w_listen w) &&
      existsb (fun x => has_sd (snd x) && Nat.eqb (p_own (snd x)) s) (w_procs w)
  | None => false
  end.
