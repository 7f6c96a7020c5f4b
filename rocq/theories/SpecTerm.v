(* Specification vocabulary for C03 and C30: what a batch of events comes to, and
   an outer loop that feeds the engine one event at a time. *)
From Verif Require Import Base Keys Types MacroExec Kbd.

(* The engine comes to an end with result r: the depth of recursion the model is
   allowed is irrelevant as soon as it is large enough. *)
Definition outcome (k : kbd) (evs : list kev) (r : res (kbd * Z)) : Prop :=
  r <> NoFuel /\ exists f0, forall f, f0 <= f -> kbd_process_events f k evs = r.

(* [driven k delay due evs r]: a caller holding the engine in state k, told to call
   back after [delay] ms (0: never), that is at time [due], hands the events evs over
   one by one in calls of one event each.  Before each event that is not earlier than
   a call back which is due, it makes the call back, a call with one timer event. *)
Inductive driven : kbd -> Z -> Z -> list kev -> res (kbd * Z) -> Prop :=
| dr_end k delay due : driven k delay due [] (Ok (k, delay))
| dr_timer k delay due e rest k1 d1 r :
    (0 < delay)%Z -> (due <= ev_time e)%Z ->
    outcome k [mkKev 0 false due] (Ok (k1, d1)) ->
    driven k1 d1 (due + d1)%Z (e :: rest) r ->
    driven k delay due (e :: rest) r
| dr_timer_stop k delay due e rest r :
    (0 < delay)%Z -> (due <= ev_time e)%Z ->
    outcome k [mkKev 0 false due] r -> (forall x, r <> Ok x) ->
    driven k delay due (e :: rest) r
| dr_event k delay due e rest k1 d1 r :
    ~ ((0 < delay)%Z /\ (due <= ev_time e)%Z) ->
    outcome k [e] (Ok (k1, d1)) ->
    driven k1 d1 (ev_time e + d1)%Z rest r ->
    driven k delay due (e :: rest) r
| dr_event_stop k delay due e rest r :
    ~ ((0 < delay)%Z /\ (due <= ev_time e)%Z) ->
    outcome k [e] r -> (forall x, r <> Ok x) ->
    driven k delay due (e :: rest) r.
