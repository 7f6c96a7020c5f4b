(* Specification vocabulary for C64: what the virtual devices have declared and what is
   written to them. *)
From Verif Require Import Base Keys Types Kbd Config Device Daemon Uinput.
Local Open Scope N_scope.

(* what the events for the host become on the virtual pointer (true) and on the virtual
   keyboard (false), in order *)
Definition to_host (v : vev) : list uout :=
  match v with
  | VKey c s => [write_key_event c (if s then 1 else 0)%Z]
  | VScroll x y => uinput_scroll x y
  | VMove x y => uinput_move x y
  | VMoveAbs x y => uinput_move_abs x y
  | _ => []
  end.
Definition host_events (d : dstate) : list uout := flat_map to_host (rev (d_out d)).

(* the device an event is written to can send it *)
Definition declared (u : uout) : Prop :=
  In (ie_type (snd u), ie_code (snd u)) (if fst u then pointer_bits else keyboard_bits).
