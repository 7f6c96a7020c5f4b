(* Specification vocabulary for the layer indicator (C62). *)
From Verif Require Import Base Types Kbd Device Daemon SpecDaemon.
Local Open Scope N_scope.

(* everything written to the LEDs of device i, newest first: which LED, which value *)
Fixpoint leds (i : nat) (out : list vev) : list (N * N) :=
  match out with
  | [] => []
  | VLed j l v :: r => if Nat.eqb j i then (l, v) :: leds i r else leds i r
  | _ :: r => leds i r
  end.
(* some layer besides main that is not a layout is active *)
Definition layer_on (k : kbd) : Prop := exists i, (0 < i < length (c_layers (k_cfg k)))%nat /\
  ltypei (k_cfg k) i <> LLayout /\ active_layer k i = true.
(* what was last written to an LED of device i is that LED 1 (caps lock) is on if some
   layer is active, else off *)
Definition shows (i : nat) (d : dstate) (k : kbd) : Prop := exists v r, leds i (d_out d) = (1, v) :: r /\
  (v = 1 /\ layer_on k \/ v = 0 /\ ~ layer_on k).
(* the keyboard of device i *)
Definition keyboard_of (d : dstate) (i : nat) : option kptr :=
  match nth_error (d_devs d) i with Some dv => dv_data dv | None => None end.
(* d' is a later state: no reload, no LED event of the host, device i not (re)assigned *)
Definition undisturbed (i : nat) (ev : event) : Prop :=
  match ev with
  | EvClient _ m _ _ => i_type m <> IReload
  | EvDev _ de => de_type de <> DevLed
  | EvAdd j _ => j <> i
  | _ => True
  end.
Inductive along (fuel : nat) (wr : nat -> bool) (i : nat) (d : dstate) : dstate -> Prop :=
| al_now : along fuel wr i d d
| al_call d1 ev ts d2 t : along fuel wr i d d1 -> undisturbed i ev -> event_handler fuel wr ev ts d1 = Ok (d2, t) ->
    along fuel wr i d d2
| al_devices d1 v : along fuel wr i d d1 -> keyboard_of (set_d_devs v d1) i = keyboard_of d1 i ->
    along fuel wr i d (set_d_devs v d1).
(* the announcements of layers in a piece of the trace *)
Definition notes (new : list oev) : list oev := filter (fun o => match o with OLayer _ _ _ => true | _ => false end) new.
