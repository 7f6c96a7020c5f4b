(* Specification of the USB boot keyboard report (C50).  Nothing here refers to
   the driver's state. *)
From Coq Require Import String.
From Verif Require Import Base.
Local Open Scope N_scope.
Local Open Scope list_scope.

(* Key events sent to the driver, oldest first. *)
Definition kevent : Type := (N * bool)%type.

(* A key is held when its last event is a press. *)
Definition held (evs : list kevent) (c : N) : bool :=
  fold_left (fun h '(k, p) => if k =? c then p else h) evs false.

(* HID 1.11, appendix C: bit i of the modifier byte is the i-th of left control,
   left shift, left alt, left meta, right control, right shift, right alt, right
   meta (evdev codes). *)
Definition modifier_keys : list N := [29; 42; 56; 125; 97; 54; 100; 126].

(* HID usage tables, page 7: the usages of letters, digits, function keys and
   some others, by the name of the key. *)
Definition usage_rows : list (str * N) :=
  map (fun i => ([97 + N.of_nat i], 4 + N.of_nat i)) (seq 0 26)
  ++ map (fun i => ([49 + N.of_nat i], 30 + N.of_nat i)) (seq 0 9)
  ++ [(bs "0", 39); (bs "enter", 40); (bs "esc", 41); (bs "backspace", 42); (bs "tab", 43); (bs "space", 44);
      (bs "-", 45); (bs "=", 46); (bs "[", 47); (bs "]", 48); (bs "\", 49); (bs ";", 51); (bs "'", 52);
      (bs "`", 53); (bs ",", 54); (bs ".", 55); (bs "/", 56); (bs "capslock", 57);
      (bs "f1", 58); (bs "f2", 59); (bs "f3", 60); (bs "f4", 61); (bs "f5", 62); (bs "f6", 63);
      (bs "f7", 64); (bs "f8", 65); (bs "f9", 66); (bs "f10", 67); (bs "f11", 68); (bs "f12", 69);
      (bs "insert", 73); (bs "home", 74); (bs "pageup", 75); (bs "delete", 76); (bs "end", 77);
      (bs "pagedown", 78); (bs "right", 79); (bs "left", 80); (bs "down", 81); (bs "up", 82)].
