(* Specification vocabulary for C84: which keyboard the timer events of the loop reach. *)
From Verif Require Import Base Types Keys Kbd Device Daemon SpecDaemon.

(* the keyboard of the device from which an event came, if it has one *)
Definition owner (d : dstate) (ev : event) : option kptr :=
  match ev with
  | EvDev i _ => match nth_error (d_devs d) i with Some dv => dv_data dv | None => None end
  | _ => None
  end.
(* the keyboard to which a call that runs the engine goes: the device's own; for timers and
   foreign mice the one used last *)
Definition whose (d : dstate) (ev : event) : option kptr :=
  match owner d ev with Some p => Some p | None => d_active d end.
Definition reloads (ev : event) : Prop :=
  match ev with EvClient _ m _ _ => i_type m = IReload | _ => False end.
(* The keyboard p is in use (calls of the handler, newest first): the last call that ran the
   engine went to p, and since then no device of another keyboard has said anything, not
   even a mouse that moved, and nothing was loaded. *)
Fixpoint in_use (p : kptr) (calls : list (dstate * event * Z * Z)) : Prop :=
  match calls with
  | [] => False
  | (d, ev, _, _) :: r =>
      if runs_engine d ev then whose d ev = Some p
      else (forall q, owner d ev = Some q -> q = p) /\ ~ reloads ev /\ in_use p r
  end.
(* when the engine was last called *)
Fixpoint latest (calls : list (dstate * event * Z * Z)) : option Z :=
  match calls with
  | [] => None
  | (d, ev, ts, _) :: r => if runs_engine d ev then Some ts else latest r
  end.
