(* Messages (log.c), the command "keyd monitor" (monitor.c) and the virtual keyboard that
   only prints (vkbd/stdout.c).  No proofs in this file.  The output streams are the bytes
   handed to them. *)
From Coq Require Import String.
From Verif Require Import Base KeyTable.
Local Open Scope N_scope.
Local Open Scope list_scope.
Local Notation length := List.length.

(* log.c:16 (static char buf[1024]) *)
Definition BUF : nat := 1024.

(* log.c:24-33: the letters that name a colour; 0 for the others *)
Definition escape_num (c : N) : N :=
  if c =? 114 then 1 else if c =? 103 then 2 else if c =? 121 then 3 else if c =? 98 then 4
  else if c =? 109 then 5 else if c =? 99 then 6 else if c =? 119 then 7 else 0.

(* log.c:20-64: the loop.  buf holds the n bytes written; [col] is !suppress_colours.  The
   loop ends when the buffer is full. *)
Fixpoint colorize_loop (col : bool) (s : str) (buf : str) (inside : bool) : str :=
  match s with
  | [] => buf
  | c :: r =>
      if Nat.ltb (length buf) BUF then
        match r with
        | 123 :: r2 =>
            if escape_num c =? 0 then
              if (c =? 125) && inside then
                colorize_loop col r
                  (if col && Nat.ltb 4 (BUF - length buf) then buf ++ [27; 91; 48; 109] else buf) false
              else colorize_loop col r (buf ++ [c]) inside
            else
              colorize_loop col r2
                (if col && Nat.ltb 5 (BUF - length buf) then buf ++ [27; 91; 51; 48 + escape_num c; 109]
                 else buf) true
        | _ =>
            if (c =? 125) && inside then
              colorize_loop col r
                (if col && Nat.ltb 4 (BUF - length buf) then buf ++ [27; 91; 48; 109] else buf) false
            else colorize_loop col r (buf ++ [c]) inside
        end
      else buf
  end.
(* log.c:12-69 (colorize): buf[n] = 0 is outside the buffer when n is its size *)
Definition colorize (col : bool) (s : str) : res str :=
  let buf := colorize_loop col s [] false in
  if Nat.ltb (length buf) BUF then Ok buf else UB.

(* Arguments of printf: a string or NULL, a number *)
Inductive arg := AStr (s : option str) | ANum (z : Z).

(* printf's %d *)
Fixpoint digits (u : Decimal.uint) : str :=
  match u with
  | Decimal.Nil => []
  | Decimal.D0 u => 48 :: digits u
  | Decimal.D1 u => 49 :: digits u
  | Decimal.D2 u => 50 :: digits u
  | Decimal.D3 u => 51 :: digits u
  | Decimal.D4 u => 52 :: digits u
  | Decimal.D5 u => 53 :: digits u
  | Decimal.D6 u => 54 :: digits u
  | Decimal.D7 u => 55 :: digits u
  | Decimal.D8 u => 56 :: digits u
  | Decimal.D9 u => 57 :: digits u
  end.
Definition decimal (z : Z) : str :=
  match Z.to_int z with Decimal.Pos u => digits u | Decimal.Neg u => 45 :: digits u end.
(* printf's %x, for numbers that are not negative *)
Fixpoint hex_digits (u : Hexadecimal.uint) : str :=
  match u with
  | Hexadecimal.Nil => []
  | Hexadecimal.D0 u => 48 :: hex_digits u
  | Hexadecimal.D1 u => 49 :: hex_digits u
  | Hexadecimal.D2 u => 50 :: hex_digits u
  | Hexadecimal.D3 u => 51 :: hex_digits u
  | Hexadecimal.D4 u => 52 :: hex_digits u
  | Hexadecimal.D5 u => 53 :: hex_digits u
  | Hexadecimal.D6 u => 54 :: hex_digits u
  | Hexadecimal.D7 u => 55 :: hex_digits u
  | Hexadecimal.D8 u => 56 :: hex_digits u
  | Hexadecimal.D9 u => 57 :: hex_digits u
  | Hexadecimal.Da u => 97 :: hex_digits u
  | Hexadecimal.Db u => 98 :: hex_digits u
  | Hexadecimal.Dc u => 99 :: hex_digits u
  | Hexadecimal.Dd u => 100 :: hex_digits u
  | Hexadecimal.De u => 101 :: hex_digits u
  | Hexadecimal.Df u => 102 :: hex_digits u
  end.

(* printf (C library), as far as the program uses it: %s, %d and %x with the length
   modifiers l and z.  A NULL string, an argument that is missing or of the wrong kind and
   any other conversion are undefined.  [conv]: inside a conversion. *)
Fixpoint vprintf (conv : bool) (f : str) (args : list arg) : res str :=
  match f with
  | [] => if conv then UB else Ok []
  | c :: r =>
      if conv then
        if (c =? 108) || (c =? 122) then vprintf true r args
        else
          match args with
          | AStr (Some s) :: a => if c =? 115 then t <- vprintf false r a ;; Ok (s ++ t) else UB
          | ANum z :: a =>
              if c =? 100 then t <- vprintf false r a ;; Ok (decimal z ++ t)
              else if (c =? 120) && (0 <=? z)%Z then
                t <- vprintf false r a ;; Ok (hex_digits (N.to_hex_uint (Z.to_N z)) ++ t)
              else UB
          | _ => UB
          end
      else if c =? 37 then vprintf true r args
      else t <- vprintf false r args ;; Ok (c :: t)
  end.

(* log.c:83-92 (_keyd_log): what is printed *)
Definition log (log_level : Z) (col : bool) (level : Z) (f : str) (args : list arg) : res str :=
  if (log_level <? level)%Z then Ok [] else f' <- colorize col f ;; vprintf false f' args.
(* log.c:71-81 (die): what is printed to stderr before the process exits *)
Definition die_text (col : bool) (f : str) (args : list arg) : res str :=
  h <- colorize col (bs "r{FATAL ERROR:} ") ;;
  f' <- colorize col f ;;
  t <- vprintf false f' args ;;
  Ok (h ++ t ++ [10]).

Definition TAB : string := String (Ascii.ascii_of_N 9) "".
Definition NL : string := String (Ascii.ascii_of_N 10) "".

(* The formats of all messages, as the macros of log.h:16-19 and config.c:31 complete them,
   in the order of: config.c, daemon.c, device.c, evloop.c, keyboard.c, keyd.c, monitor.c,
   vkbd/uinput.c.  The text "Starting keyd" VERSION (daemon.c:621), whose second part is set
   when the program is compiled, is not among them. *)
Definition warn (s : string) : str := bs (TAB ++ "y{WARNING:} " ++ s ++ NL).
Definition dbg (s : string) : str := bs ("r{DEBUG:} b{%s:%d:} " ++ s ++ NL).
Definition quote : string := String (Ascii.ascii_of_N 34) "".
Definition formats : list str :=
  [warn "%s: included files may not have a file extension"; (* config.c:90 *)
   warn "failed to resolve include path: %s"; (* config.c:153 *)
   warn "failed to include %s"; (* config.c:160 *)
   warn (quote ++ "%s" ++ quote ++ " is not a valid layer type, ignoring" ++ NL); (* config.c:351 *)
   warn "You should use b{layer(%s)} instead of assigning to b{%s} directly."; (* config.c:569 *)
   warn "%s is deprecated (renamed to %s)."; (* config.c:641 *)
   warn "line %zd: %s is not a valid global option"; (* config.c:761 *)
   warn "%s is not a valid device id"; (* config.c:797 *)
   warn "%s exceeds the maximum alias length (%ld)"; (* config.c:815 *)
   warn "failed to define alias %s, %s is not a valid keycode"; (* config.c:830 *)
   warn "%s"; (* config.c:856 *)
   warn "invalid binding on line %zd"; (* config.c:878 *)
   bs (TAB ++ "r{ERROR:} line m{%zd}: %s" ++ NL); (* config.c:885 *)
   bs ("CONFIG: parsing b{%s}" ++ NL); (* daemon.c:205 *)
   bs ("DEVICE: y{WARNING} failed to parse %s" ++ NL); (* daemon.c:218 *)
   bs ("DEVICE: y{WARNING} Failed to grab %s" ++ NL); (* daemon.c:266 *)
   bs ("DEVICE: g{match}    %s  %s" ++ TAB ++ "(%s)" ++ NL); (* daemon.c:271 *)
   bs ("DEVICE: r{ignoring} %s  (%s)" ++ NL); (* daemon.c:278 *)
   dbg "input %s %s"; (* daemon.c:505 *)
   bs ("DEVICE: r{removed}" ++ TAB ++ "%s %s" ++ NL); (* daemon.c:578 *)
   bs "failed to create %s (another instance already running?)"; (* daemon.c:603 *)
   bs ("failed to open %s" ++ NL); (* device.c:132 *)
   bs ("ERROR: could not fetch device name of %s" ++ NL); (* device.c:139 *)
   dbg "capabilities of %s (%s): %x"; (* device.c:161 *)
   dbg ("Unrecognized EV_REL code: %d" ++ NL); (* device.c:435 *)
   dbg "Unrecognized EV_ABS code: %x"; (* device.c:455 *)
   bs ("r{ERROR:} unsupported evdev code: 0x%x" ++ NL); (* device.c:550 *)
   dbg "key %s %s"; (* device.c:560 *)
   dbg "unrecognized evdev event type: %d %d %d"; (* device.c:571 *)
   bs "panic sequence detected"; (* evloop.c:27 *)
   dbg "Deactivating layer %s"; (* keyboard.c:245 *)
   dbg "Activating layer %s"; (* keyboard.c:260 *)
   dbg "executing command: %s"; (* keyboard.c:371 *)
   bs (TAB ++ "WARNING: could not find default layout %s." ++ NL); (* keyboard.c:835 *)
   bs "maximum input length exceeded"; (* keyd.c:111, 122 *)
   dbg "Debug mode activated"; (* keyd.c:246 *)
   bs ("device added: %s %s (%s)" ++ NL); (* monitor.c:41 *)
   bs ("device removed: %s %s (%s)" ++ NL); (* monitor.c:45 *)
   bs ("r{+%ld} ms" ++ TAB); (* monitor.c:54 *)
   bs ("%s" ++ TAB ++ "%s" ++ TAB ++ "%s %s" ++ NL); (* monitor.c:56 *)
   dbg "output %s %s" (* vkbd/uinput.c:336 *)].

(* keys.c (keycode_table[code].name) *)
Definition name_at (code : N) : option str :=
  match nth_error keycode_table (N.to_nat code) with Some (n, _, _) => n | None => None end.

(* monitor.c:33-78 (event_handler): the events it distinguishes.  A device is what is printed
   of it: its name, its id and its path. *)
Record mdev := mkMd { md_name : str; md_id : str; md_path : str }.
Inductive mevent :=
| MAdd (dv : mdev)
| MRemove (dv : mdev)
| MKey (dv : mdev) (code : N) (pressed : bool)
| MMotion (dv : mdev)
| MFdErr
| MFd.
(* What is fixed while the command runs: -t, the level and whether there are colours *)
Record mopts := mkMo { mo_time : bool; mo_level : Z; mo_col : bool }.

(* monitor.c:33-78: the text printed and the new last_time; None when the process exits *)
Definition mon_handler (o : mopts) (last : Z) (ev : mevent) (ts : Z) : res (option (str * Z)) :=
  let say := log (mo_level o) (mo_col o) 0 in
  match ev with
  | MAdd dv =>
      t <- say (bs ("device added: %s %s (%s)" ++ NL)) [AStr (Some (md_id dv)); AStr (Some (md_name dv)); AStr (Some (md_path dv))] ;;
      Ok (Some (t, ts))
  | MRemove dv =>
      t <- say (bs ("device removed: %s %s (%s)" ++ NL)) [AStr (Some (md_id dv)); AStr (Some (md_name dv)); AStr (Some (md_path dv))] ;;
      Ok (Some (t, ts))
  | MKey dv code pressed =>
      p <- (if mo_time o && negb (last =? 0)%Z then say (bs ("r{+%ld} ms" ++ TAB)) [ANum (ts - last)] else Ok []) ;;
      t <- say (bs ("%s" ++ TAB ++ "%s" ++ TAB ++ "%s %s" ++ NL))
               [AStr (Some (md_name dv)); AStr (Some (md_id dv)); AStr (name_at code);
                AStr (Some (if pressed then bs "down" else bs "up"))] ;;
      Ok (Some (p ++ t, ts))
  | MMotion _ | MFd => Ok (Some ([], ts))
  | MFdErr => Ok None
  end.
(* monitor.c:107 with evloop.c:35-148: the calls of the handler one after the other; the
   text printed and whether the process is still running.  Every call returns 0, so poll is
   never given a time limit and there are no EV_TIMEOUT events. *)
Fixpoint mon_run (o : mopts) (last : Z) (evs : list (mevent * Z)) : res (str * bool) :=
  match evs with
  | [] => Ok ([], true)
  | (ev, ts) :: r =>
      x <- mon_handler o last ev ts ;;
      match x with
      | None => Ok ([], false)
      | Some (t, last') => y <- mon_run o last' r ;; Ok (t ++ fst y, snd y)
      end
  end.

(* monitor.c:5-20 (set_tflags): the local modes of the terminal at stdin, if it is one;
   reading and setting them is taken to succeed *)
Definition ECHO : N := 8.
Definition ICANON : N := 2.
Definition set_tflags (stdin_tty : bool) (flags : N) (val : bool) (modes : N) : N :=
  if negb stdin_tty then modes else if val then N.lor modes flags else N.ldiff modes flags.
(* monitor.c:22-31 (cleanup), 90-91: the modes while the command runs, and after it *)
Definition modes_during (stdin_tty stdout_tty : bool) (modes : N) : N :=
  if stdout_tty then set_tflags stdin_tty ECHO false modes else modes.
Definition modes_after (stdin_tty stdout_tty : bool) (modes : N) : N :=
  set_tflags stdin_tty (N.lor ICANON ECHO) true
    (set_tflags stdin_tty ICANON false (modes_during stdin_tty stdout_tty modes)).

(* vkbd/stdout.c:25-43: what each call of the printing virtual keyboard prints *)
Definition stdout_scroll (x y : Z) : res str := vprintf false (bs ("mouse scroll: x: %d, y: %d" ++ NL)) [ANum x; ANum y].
Definition stdout_move (x y : Z) : res str := vprintf false (bs ("mouse movement: x: %d, y: %d" ++ NL)) [ANum x; ANum y].
Definition stdout_move_abs (x y : Z) : res str :=
  vprintf false (bs ("absolute mouse movement: x: %d, y: %d" ++ NL)) [ANum x; ANum y].
Definition stdout_key (code : N) (state : Z) : res str :=
  vprintf false (bs ("key: %s, state: %d" ++ NL)) [AStr (name_at code); ANum state].
