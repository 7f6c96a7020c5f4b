(* Raw input events (device.c) and the uinput side of the virtual keyboard
   (vkbd/uinput.c).  No proofs in this file. *)
From Verif Require Import Base Types Keys Str.
Local Open Scope N_scope.

(* ext/evdev-input-codes.h:788-794 *)
Definition EV_KEY : N := 1.
Definition EV_REL : N := 2.
Definition EV_ABS : N := 3.
Definition EV_LED : N := 17.
(* ext/evdev-input-codes.h:1442-1458 *)
Definition REL_X : N := 0.
Definition REL_Y : N := 1.
Definition REL_HWHEEL : N := 6.
Definition REL_WHEEL : N := 8.
Definition ABS_X : N := 0.
Definition ABS_Y : N := 1.

(* struct input_event without the time stamp *)
Record iev := mkIev { ie_type : N; ie_code : N; ie_value : Z }.

(* The result of read(2) on an event device: an event, EAGAIN, or another
   error. *)
Inductive rd := REvent (e : iev) | RAgain | RError.

(* device.h:42-60 (struct device_event) *)
Inductive detype := DevKey | DevLed | DevMove | DevMoveAbs | DevScroll | DevRemoved.
Record devev := mkDe { de_type : detype; de_code : N; de_pressed : N; de_x : Z; de_y : Z }.
(* device_read_event keeps its result in a static variable, zeroed at start
   (DEV_KEY is the first enumerator). *)
Definition zero_de : devev := mkDe DevKey 0 0 0 0.

(* device.h:17-40 (struct device): _maxx - _minx and _maxy - _miny (uint32_t)
   are kept as the differences; data is kept by the daemon model. *)
Record axes := mkAxes { ax_w : N; ax_h : N }.

(* device.c:471-546 (the switch over codes >= 256); evdev codes from
   ext/evdev-input-codes.h, KEYD codes from keys.h:179-289.  The cases
   KEY_PROG1..4 (148, 149, 202, 203) are below 256 and cannot be taken. *)
Definition high_codes : list (N * N) :=
  [ (0x1d2, 183); (0x1d3, 184); (0x1d4, 185); (0x1d5, 186); (0x1d6, 187); (0x1d7, 188);
    (0x1d8, 189); (0x1d9, 190); (0x1da, 191); (0x1db, 192); (0x1dc, 193); (0x1dd, 194);
    (0x1bc, 191); (0x1bd, 192); (0x1be, 193);
    (0x1e5, 183); (0x176, 184); (0x232, 185); (0x27a, 186); (0x214, 187); (0x213, 188); (0x168, 189);
    (0x1a6, 183); (0x1a7, 184); (0x1a8, 185); (0x1a9, 186); (0x1aa, 187); (0x1ab, 188);
    (0x1ac, 189); (0x1ad, 190); (0x1ae, 191);
    (0x1d0, 254); (0x174, 177); (0x246, 222);
    (0x110, 249); (0x112, 250); (0x111, 251); (0x113, 252); (0x114, 253); (0x116, 178); (0x115, 255);
    (0x117, 188);
    (0x100, 183); (0x101, 184); (0x102, 185); (0x103, 186); (0x104, 187);
    (0x105, 188); (0x106, 189); (0x107, 190); (0x108, 191); (0x109, 192) ].

Fixpoint assoc (l : list (N * N)) (c : N) : option N :=
  match l with
  | [] => None
  | (a, b) :: r => if a =? c then Some b else assoc r c
  end.

(* device.c:470-559: the code stored in devev.code (a uint8_t), None where the
   function returns NULL.  Codes BTN_DIGI..BTN_TOOL_QUADTAP fall through and
   are truncated. *)
Definition read_code (c : N) : option N :=
  if c <? 256 then Some c
  else match assoc high_codes c with
       | Some k => Some k
       | None => if (0x140 <=? c) && (c <=? 0x14f) then Some (c mod 256) else None
       end.

(* (value * 1024) / (max - min): the product is an int (overflow is undefined),
   the quotient is computed in uint32_t (division by zero is undefined) and
   stored in an int32_t. *)
Definition abs_scale (v : Z) (w : N) : res Z :=
  let p := (v * 1024)%Z in
  if ((p <? -2147483648) || (2147483647 <? p))%Z then UB
  else if w =? 0 then UB
  else Ok (wrap_s 32 ((p mod 4294967296) / Z.of_N w)%Z).

(* uint8_t conversion of ev.value *)
Definition u8 (v : Z) : N := Z.to_N (v mod 256).

(* device.c:384-576 (device_read_event), given what read(2) delivers: the new
   contents of the static variable and whether it is returned (false: NULL).
   An EV_ABS event with another code returns the variable unchanged. *)
Definition device_read_event (ax : axes) (st : devev) (r : rd) : res (devev * bool) :=
  match r with
  | RAgain => Ok (st, false)
  | RError => Ok (mkDe DevRemoved (de_code st) (de_pressed st) (de_x st) (de_y st), true)
  | REvent e =>
      let c := ie_code e in
      let v := ie_value e in
      if ie_type e =? EV_REL then
        if c =? REL_WHEEL then Ok (mkDe DevScroll (de_code st) (de_pressed st) 0 v, true)
        else if c =? REL_HWHEEL then Ok (mkDe DevScroll (de_code st) (de_pressed st) v 0, true)
        else if c =? REL_X then Ok (mkDe DevMove (de_code st) (de_pressed st) v 0, true)
        else if c =? REL_Y then Ok (mkDe DevMove (de_code st) (de_pressed st) 0 v, true)
        else Ok (st, false)
      else if ie_type e =? EV_ABS then
        if c =? ABS_X then
          x <- abs_scale v (ax_w ax) ;; Ok (mkDe DevMoveAbs (de_code st) (de_pressed st) x 0, true)
        else if c =? ABS_Y then
          y <- abs_scale v (ax_h ax) ;; Ok (mkDe DevMoveAbs (de_code st) (de_pressed st) 0 y, true)
        else Ok (st, true)
      else if ie_type e =? EV_KEY then
        if (v =? 2)%Z then Ok (st, false)
        else match read_code c with
             | None => Ok (st, false)
             | Some k => Ok (mkDe DevKey k (u8 v) (de_x st) (de_y st), true)
             end
      else if ie_type e =? EV_LED then Ok (mkDe DevLed (c mod 256) (u8 v) (de_x st) (de_y st), true)
      else Ok (st, false)
  end.

(* ---- vkbd/uinput.c --------------------------------------------------------
   What is written to the virtual keyboard (false) or the virtual pointer
   (true), without the EV_SYN after each event. *)
Definition uout : Type := (bool * iev)%type.

(* uinput.c:174-188: the codes with a button or a remapped key *)
Definition button_codes : list (N * N) :=
  [(249, 0x110); (250, 0x112); (251, 0x111); (252, 0x113); (253, 0x114); (178, 0x116); (255, 0x115)].
Definition write_key_event (code : N) (state : Z) : uout :=
  match assoc button_codes code with
  | Some b => (true, mkIev EV_KEY b state)
  | None =>
      (false, mkIev EV_KEY (if code =? 177 then 0x174 else if code =? 222 then 0x246 else code) state)
  end.

(* uinput.c:239-270 (vkbd_mouse_move) *)
Definition uinput_move (x y : Z) : list uout :=
  (if (x =? 0)%Z then [] else [(true, mkIev EV_REL REL_X x)])
  ++ (if (y =? 0)%Z then [] else [(true, mkIev EV_REL REL_Y y)]).
(* uinput.c:272-299 (vkbd_mouse_scroll) *)
Definition uinput_scroll (x y : Z) : list uout :=
  [(true, mkIev EV_REL REL_WHEEL y); (true, mkIev EV_REL REL_HWHEEL x)].
(* uinput.c:301-332 (vkbd_mouse_move_abs) *)
Definition uinput_move_abs (x y : Z) : list uout :=
  (if (x =? 0)%Z then [] else [(true, mkIev EV_ABS ABS_X x)])
  ++ (if (y =? 0)%Z then [] else [(true, mkIev EV_ABS ABS_Y y)]).
