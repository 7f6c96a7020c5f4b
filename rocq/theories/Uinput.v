(* The capabilities the virtual devices are created with (vkbd/uinput.c).  No proofs in
   this file.  What keyd itself makes of them when it finds them in /dev/input is in
   Identify.v.  Opening /dev/uinput and the ranges of the absolute axes are not modelled; an ioctl that fails ends the process (virtual keyboard) or is
   ignored (virtual pointer), here all of them succeed. *)
From Verif Require Import Base KeyTable Keys Device.
From Coq Require Import List.
Import ListNotations.
Local Open Scope N_scope.

(* ext/evdev-input-codes.h: LED_NUML to LED_MISC, KEY_ZOOM, BTN_LEFT to BTN_TASK,
   REL_Z *)
Definition LED_NUML : N := 0.
Definition LED_MISC : N := 8.
Definition EVDEV_ZOOM : N := 0x174.
Definition BTN_LEFT : N := 0x110.
Definition BTN_TASK : N := 0x117.
Definition REL_Z : N := 2.

(* the numbers from a to b *)
Definition range (a b : N) : list N := map N.of_nat (seq (N.to_nat a) (N.to_nat b + 1 - N.to_nat a)).

(* the code has a name *)
Definition has_name (code : N) : bool :=
  match nth_error keycode_table (N.to_nat code) with
  | Some (Some _, _, _) => true
  | _ => false
  end.

(* uinput.c:34-112 (create_virtual_keyboard): event types with the codes declared for
   them *)
Definition keyboard_bits : list (N * N) :=
  map (fun code => (EV_KEY, code)) (filter has_name (range 0 255))   (* 67-74 *)
  ++ map (fun i => (EV_LED, i)) (range LED_NUML LED_MISC)            (* 76-80 *)
  ++ [(EV_KEY, EVDEV_ZOOM)].                                         (* 82-85 *)

(* uinput.c:114-158 (create_virtual_pointer) *)
Definition pointer_bits : list (N * N) :=
  [(EV_ABS, ABS_X); (EV_ABS, ABS_Y); (EV_REL, REL_X); (EV_REL, REL_WHEEL); (EV_REL, REL_HWHEEL); (EV_REL, REL_Y);
   (EV_REL, REL_Z)]                                                  (* 130-136 *)
  ++ map (fun code => (EV_KEY, code)) (range BTN_LEFT BTN_TASK).     (* 138-139 *)
