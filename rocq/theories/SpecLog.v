(* What a message prints, said without buffers: the format is read once, colour marks become
   terminal sequences, conversions become their arguments.  Used by PropLog.v. *)
From Coq Require Import String.
From Verif Require Import Base KeyTable Log.
Local Open Scope N_scope.
Local Open Scope list_scope.

(* The letters of the colours and their numbers *)
Definition palette : list (N * N) :=
  combine (bs "rgybmcw") [1; 2; 3; 4; 5; 6; 7].

(* The conversion ending in letter k shows argument x as w *)
Inductive shows : N -> arg -> str -> Prop :=
| shows_string s : shows 115 (AStr (Some s)) s
| shows_decimal z : shows 100 (ANum z) (decimal z)
| shows_hex n : shows 120 (ANum (Z.of_N n)) (hex_digits (N.to_hex_uint n)).

Definition modifiers (m : str) : Prop := Forall (fun c => c = 108 \/ c = 122) m.

(* [says col inside f args t]: format f with arguments args prints t; [inside]: a colour mark
   is open, so that the next closing brace ends it *)
Inductive says (col : bool) : bool -> str -> list arg -> str -> Prop :=
| says_end i a : says col i [] a []
| says_open i l d f a t :
    In (l, d) palette -> says col true f a t ->
    says col i (l :: 123 :: f) a ((if col then [27; 91; 51; 48 + d; 109] else []) ++ t)
| says_close f a t :
    says col false f a t ->
    says col true (125 :: f) a ((if col then [27; 91; 48; 109] else []) ++ t)
| says_conversion i m k x w f a t :
    modifiers m -> shows k x w -> says col i f a t ->
    says col i (37 :: m ++ k :: f) (x :: a) (w ++ t)
| says_plain i c f a t :
    c <> 37 -> ~ (i = true /\ c = 125) ->
    (forall d r, In (c, d) palette -> f <> 123 :: r) ->
    says col i f a t ->
    says col i (c :: f) a (c :: t).

(* Every percent sign starts one of the conversions above *)
Definition proper (f : str) : Prop :=
  forall p r, f = p ++ 37 :: r ->
  exists m k r', r = m ++ k :: r' /\ modifiers m /\ In k [115; 100; 120].

(* The lines of keyd monitor *)
Definition device_line (what : str) (dv : mdev) : str :=
  what ++ md_id dv ++ [32] ++ md_name dv ++ bs " (" ++ md_path dv ++ bs ")" ++ [10].
Definition key_line (dv : mdev) (name : str) (pressed : bool) : str :=
  md_name dv ++ [9] ++ md_id dv ++ [9] ++ name ++ [32] ++ (if pressed then bs "down" else bs "up") ++ [10].
Definition time_mark (col : bool) (ms : Z) : str :=
  (if col then [27; 91; 51; 49; 109] else []) ++ [43] ++ decimal ms
  ++ (if col then [27; 91; 48; 109] else []) ++ bs " ms" ++ [9].

(* [prints o last ev ts t]: the event ev at time ts prints t, when the event before it was at
   time [last] (0 for none) *)
Inductive prints (o : mopts) (last : Z) : mevent -> Z -> str -> Prop :=
| prints_add dv ts : prints o last (MAdd dv) ts (device_line (bs "device added: ") dv)
| prints_remove dv ts : prints o last (MRemove dv) ts (device_line (bs "device removed: ") dv)
| prints_key dv code name pressed ts :
    name_at code = Some name -> mo_time o = false \/ last = 0%Z ->
    prints o last (MKey dv code pressed) ts (key_line dv name pressed)
| prints_key_time dv code name pressed ts :
    name_at code = Some name -> mo_time o = true -> last <> 0%Z ->
    prints o last (MKey dv code pressed) ts (time_mark (mo_col o) (ts - last) ++ key_line dv name pressed)
| prints_motion dv ts : prints o last (MMotion dv) ts []
| prints_fd ts : prints o last MFd ts [].

(* [session o last evs t alive]: the events evs print t, one after the other, until the pipe
   at stdout is closed *)
Inductive session (o : mopts) : Z -> list (mevent * Z) -> str -> bool -> Prop :=
| session_open last : session o last [] [] true
| session_closed last ts evs : session o last ((MFdErr, ts) :: evs) [] false
| session_event last ev ts t evs t' b :
    prints o last ev ts t -> session o ts evs t' b -> session o last ((ev, ts) :: evs) (t ++ t') b.
