(* How devices are noticed: the scan of /dev/input at the start and the inotify descriptor
   afterwards (device.c:199-309).  No proofs in this file.  What a device node yields
   (device_init, Identify.v) is a parameter: a function of the number of nodes opened so far
   and of the path, so that a node may come and go. *)
From Coq Require Import String.
From Verif Require Import Base Client.
Local Open Scope N_scope.
Local Open Scope list_scope.
Local Notation length := List.length.

(* device.h:15 (MAX_DEVICES) *)
Definition MAX_NODES : nat := 64.

Section Nodes.
Context {D : Type}.
Variable init : nat -> str -> option D.

(* strncmp(name, "event", 5) == 0, for a string in memory *)
Definition is_event (name : str) : bool := str_eqb (firstn 5 name) (bs "event").
(* snprintf into a buffer of 1024 bytes *)
Definition node_path (name : str) : str := firstn 1023 (bs "/dev/input/" ++ name).

(* device.c:205-248 (device_scan): the entries of the directory, in the order of readdir, with
   whether they are directories; None when the assertion of line 229 fails.  The threads are
   joined in the order of their creation, and each works on its own structure, so they are
   taken to run one after the other. *)
Fixpoint scan_workers (ents : list (str * bool)) (n : nat) (ws : list str) : option (list str) :=
  match ents with
  | [] => Some ws
  | (name, dir) :: r =>
      if negb dir && is_event name then
        if Nat.ltb n MAX_NODES then scan_workers r (S n) (ws ++ [node_path name]) else None
      else scan_workers r n ws
  end.
Fixpoint scan_join (ws : list str) (n : nat) : list D :=
  match ws with
  | [] => []
  | p :: r => match init n p with Some d => d :: scan_join r (S n) | None => scan_join r (S n) end
  end.
Definition device_scan (ents : list (str * bool)) : option (list D) :=
  match scan_workers ents 0 [] with None => None | Some ws => Some (scan_join ws 0) end.

(* device.c:282-284: the static variables of devmon_read_device (the buffer has 4096 bytes;
   ptr is an offset), the number of nodes opened, and what the calls of read(2) to come
   return: None for an error, as when nothing is there.  When the list is used up nothing
   more is there. *)
Record mon := mkMon { mn_buf : list N; mn_sz : nat; mn_ptr : nat; mn_tries : nat; mn_reads : list (option (list N)) }.
Definition MON_BUF : nat := 4096.
Definition mon_start (reads : list (option (list N))) : mon := mkMon (repeat 0 MON_BUF) 0 0 0 reads.

(* The string at an offset of the buffer; None when it does not end within it *)
Fixpoint string_at (l : list N) : option str :=
  match l with
  | [] => None
  | c :: r => if c =? 0 then Some [] else option_map (cons c) (string_at r)
  end.
(* strncmp(p, "event", 5) reads no further than to the first difference *)
Fixpoint starts_at (l : list N) (w : str) {struct w} : option bool :=
  match w with
  | [] => Some true
  | x :: w' =>
      match l with
      | [] => None
      | c :: r => if c =? x then starts_at r w' else Some false
      end
  end.

(* device.c:286-309: one round of the loop *)
Inductive ticked := Again (m : mon) | Got (d : D) (m : mon) | Stop (m : mon) | Bad.
Definition parse_tick (m : mon) : ticked :=
  let at_ptr := skipn (mn_ptr m) (mn_buf m) in
  if Nat.ltb (length at_ptr) 16 then Bad
  else
    let len := unle (firstn 4 (skipn 12 at_ptr)) in
    let name := skipn 16 at_ptr in
    let p := (mn_ptr m + 16 + N.to_nat len)%nat in
    match starts_at name (bs "event") with
    | None => Bad
    | Some false => Again (mkMon (mn_buf m) (mn_sz m) p (mn_tries m) (mn_reads m))
    | Some true =>
        match string_at name with
        | None => Bad
        | Some s =>
            let m' := mkMon (mn_buf m) (mn_sz m) p (S (mn_tries m)) (mn_reads m) in
            match init (mn_tries m) (node_path s) with
            | Some d => Got d m'
            | None => Again m'
            end
        end
    end.
Definition tick (m : mon) : ticked :=
  if Nat.leb (mn_sz m) (mn_ptr m) then
    match mn_reads m with
    | [] | None :: _ => Stop (mkMon (mn_buf m) 0 0 (mn_tries m) (tl (mn_reads m)))
    | Some b :: r => parse_tick (mkMon (b ++ skipn (length b) (mn_buf m)) (length b) 0 (mn_tries m) r)
    end
  else parse_tick m.

(* device.c:280-310 (devmon_read_device): the device, or nothing *)
Fixpoint devmon_read_device (fuel : nat) (m : mon) : res (option D * mon) :=
  match fuel with
  | O => NoFuel
  | S f =>
      match tick m with
      | Again m' => devmon_read_device f m'
      | Got d m' => Ok (Some d, m')
      | Stop m' => Ok (None, m')
      | Bad => UB
      end
  end.

(* evloop.c:130-142: all devices that are there *)
Fixpoint new_devices (fuel : nat) (m : mon) : res (list D * mon) :=
  match fuel with
  | O => NoFuel
  | S f =>
      x <- devmon_read_device fuel m ;;
      match x with
      | (None, m') => Ok ([], m')
      | (Some d, m') => y <- new_devices f m' ;; Ok (d :: fst y, snd y)
      end
  end.
End Nodes.
