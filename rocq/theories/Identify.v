(* What keyd takes an event node for (device.c).  No proofs in this file.  The answers of
   the kernel are data; the threads of device_scan and the inotify buffer of
   devmon_read_device, both of which only call device_init for nodes one by one, are not
   modelled. *)
From Coq Require Import String.
From Verif Require Import Base Types Str Keys Device Match Daemon Uinput.
Local Open Scope list_scope.
Local Open Scope N_scope.
Local Notation length := List.length.

(* The answers to open(2) and to the ioctls for an event node, None where the call fails.
   Keys are the codes below 288 (EVIOCGBIT(EV_KEY, 36)), rel and abs the first eight axes of
   each kind (EVIOCGBIT(EV_REL, 1), EVIOCGBIT(EV_ABS, 1)), the name comes without its
   terminating zero, the ranges are minimum and maximum (EVIOCGABS), the id is vendor and
   product (uint16_t). *)
Record node := mkNode {
  nd_path : str;
  nd_open : bool;
  nd_keys : option (N -> bool);
  nd_rel : option N;
  nd_abs : option N;
  nd_name : option str;
  nd_x : option (Z * Z);
  nd_y : option (Z * Z);
  nd_id : option (N * N)
}.

(* ext/evdev-input-codes.h: KEY_1 to KEY_0 and KEY_Q to KEY_Y; KEY_BRIGHTNESSUP,
   KEY_VOLUMEUP *)
Definition mask_keys : list N := [2; 3; 4; 5; 6; 7; 8; 9; 10; 11; 16; 17; 18; 19; 20; 21].
Definition BRIGHTNESSUP : N := 225.
Definition VOLUMEUP : N := 115.

(* device.c:44-100 (resolve_device_capabilities): the capabilities, the number of keys, the
   two masks.  The masks of keys are read bit by bit instead of word by word.  None where an
   ioctl fails; the C function then returns 0 with some results not set. *)
Definition resolve_device_capabilities (n : node) : option (N * N * N * N) :=
  match nd_keys n, nd_rel n, nd_abs n with
  | Some keys, Some rel, Some abs =>
      let num_keys := N.of_nat (length (filter keys (range 0 287))) in
      let mouse := if negb (rel =? 0) || negb (abs =? 0) then CAP_MOUSE else 0 in
      let mabs := if negb (abs =? 0) then CAP_MOUSE_ABS else 0 in
      let kbd := if forallb keys mask_keys || keys BRIGHTNESSUP || keys VOLUMEUP then CAP_KEYBOARD else 0 in
      Some (N.lor (N.lor mouse mabs) kbd, num_keys, rel, abs)
  | _, _, _ => None
  end.

(* device.c:102-120 (generate_uid).  char is signed. *)
Definition u32 (x : N) : N := x mod 0x100000000.
Definition widen (c : N) : N := if c <? 128 then c else c + (0x100000000 - 256).
Definition generate_uid (num_keys absmask relmask : N) (name : str) : N :=
  let step hash c := u32 (hash * 33 + c) in
  let hash := 5183 in
  let hash := step hash (N.shiftr num_keys 24 mod 256) in
  let hash := step hash (N.shiftr num_keys 16 mod 256) in
  let hash := step hash (N.shiftr num_keys 8 mod 256) in
  let hash := step hash (num_keys mod 256) in
  let hash := step hash absmask in
  let hash := step hash relmask in
  fold_left step (map widen name) hash.

(* printf's %04x and %08x for numbers that fit: the w lowest digits *)
Definition hex_digit (d : N) : N := if d <? 10 then 48 + d else 87 + d.
Fixpoint hex (w : nat) (v : N) : str :=
  match w with
  | O => []
  | S w' => hex w' (v / 16) ++ [hex_digit (v mod 16)]
  end.

(* device.h:29-30: the kernel copies the name with its zero if both fit into 64 bytes, else
   its first 64 bytes.  In the second case the string at dev->name goes on in dev->path,
   which ends within its 256 bytes (device.c:165-166). *)
Definition stored_name (name path : str) : str :=
  if Nat.ltb (length name) 64 then name else firstn 64 name ++ firstn 255 path.

(* device.c:122-197 (device_init): the device, or whether the descriptor of a node that is
   not taken is closed.  The ranges of the axes are kept as their lengths (uint32_t). *)
Inductive found := Taken (dv : device) | NotTaken (closed : bool).
Definition span (r : Z * Z) : N := Z.to_N ((snd r - fst r) mod 0x100000000)%Z.
Definition device_init (n : node) : found :=
  if negb (nd_open n) then NotTaken true (* nothing was opened *)
  else
    let r := resolve_device_capabilities n in
    let caps := match r with Some (c, _, _, _) => c | None => 0 end in
    match nd_name n with
    | None => NotTaken false
    | Some name =>
        let ax := if N.land caps CAP_MOUSE_ABS =? 0 then Some (mkAxes 0 0)
                  else match nd_x n, nd_y n with
                       | Some x, Some y => Some (mkAxes (span x) (span y))
                       | _, _ => None
                       end in
        match ax, r with
        | None, _ => NotTaken false
        | Some ax, Some (caps, num_keys, rel, abs) =>
            if caps =? 0 then NotTaken true
            else
              match nd_id n with
              | None => NotTaken false
              | Some (vendor, product) =>
                  let uid := generate_uid num_keys abs rel (stored_name name (nd_path n)) in
                  Taken (mkDev true false caps (vendor =? 0x0FAC)
                               (hex 4 vendor ++ [58] ++ hex 4 product ++ [58] ++ hex 8 uid) ax None)
              end
        | Some _, None => NotTaken true
        end
    end.

(* uinput.c:34-158: the nodes the kernel makes for the virtual devices, named by vkbd_init
   (uinput.c:228-237, keyd.h:54) *)
Definition own_keyboard (path : str) : node :=
  mkNode path true
    (Some (fun c => existsb (fun b => (fst b =? EV_KEY) && (snd b =? c)) keyboard_bits))
    (Some 0) (Some 0) (Some (bs "keyd virtual keyboard")) None None (Some (0x0FAC, 0x0ADE)).
Definition own_pointer (path : str) : node :=
  mkNode path true
    (Some (fun c => existsb (fun b => (fst b =? EV_KEY) && (snd b =? c)) pointer_bits))
    (Some 0x47) (Some 3) (Some (bs "keyd virtual pointer")) (Some (0, 1024)%Z) (Some (0, 1024)%Z)
    (Some (0x0FAC, 0x1ADE)).
