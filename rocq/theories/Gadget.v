(* The USB gadget back end, vkbd/usb-gadget.c.  No proofs in this file. *)
From Verif Require Import Base Types Keys Device.
Local Open Scope N_scope.

(* usb-gadget.h:22-168 (hid_table): the designated initialisers as pairs (key
   code, HID code); every other entry is 0 *)
Definition hid_pairs : list (N * N) :=
  [ (1, 0x29); (2, 0x1e); (3, 0x1f); (4, 0x20); (5, 0x21); (6, 0x22); (7, 0x23); (8, 0x24);
    (9, 0x25); (10, 0x26); (11, 0x27); (12, 0x2d); (13, 0x2e); (14, 0x2a); (15, 0x2b); (16, 0x14);
    (17, 0x1a); (18, 0x08); (19, 0x15); (20, 0x17); (21, 0x1c); (22, 0x18); (23, 0x0c); (24, 0x12);
    (25, 0x13); (26, 0x2f); (27, 0x30); (28, 0x28); (29, 0xe0); (30, 0x04); (31, 0x16); (32, 0x07);
    (33, 0x09); (34, 0x0a); (35, 0x0b); (36, 0x0d); (37, 0x0e); (38, 0x0f); (39, 0x33); (40, 0x34);
    (41, 0x35); (42, 0xe1); (43, 0x31); (44, 0x1d); (45, 0x1b); (46, 0x06); (47, 0x19); (48, 0x05);
    (49, 0x11); (50, 0x10); (51, 0x36); (52, 0x37); (53, 0x38); (54, 0xe5); (55, 0x55); (56, 0xe2);
    (57, 0x2c); (58, 0x39); (59, 0x3a); (60, 0x3b); (61, 0x3c); (62, 0x3d); (63, 0x3e); (64, 0x3f);
    (65, 0x40); (66, 0x41); (67, 0x42); (68, 0x43); (69, 0x53); (70, 0x47); (71, 0x5f); (72, 0x60);
    (73, 0x61); (74, 0x56); (75, 0x5c); (76, 0x5d); (77, 0x5e); (78, 0x57); (79, 0x59); (80, 0x5a);
    (81, 0x5b); (82, 0x62); (83, 0x63); (85, 0x94); (86, 0x64); (87, 0x44); (88, 0x45); (89, 0x87);
    (90, 0x92); (91, 0x93); (92, 0x8a); (93, 0x88); (94, 0x8b); (96, 0x58); (97, 0xe4); (98, 0x54);
    (99, 0x46); (100, 0xe6); (102, 0x4a); (103, 0x52); (104, 0x4b); (105, 0x50); (106, 0x4f); (107, 0x4d);
    (108, 0x51); (109, 0x4e); (110, 0x49); (111, 0x4c); (113, 0x7f); (114, 0x81); (115, 0x80); (116, 0x66);
    (117, 0x67); (118, 0xd7); (119, 0x48); (121, 0x85); (122, 0x90); (123, 0x91); (124, 0x89); (125, 0xe3);
    (126, 0xe7); (127, 0x65); (129, 0x79); (131, 0x7a); (132, 0x77); (133, 0x7c); (134, 0x74); (135, 0x7d);
    (136, 0x7e); (137, 0x7b); (138, 0x75); (179, 0xb6); (180, 0xb7); (183, 0x68); (184, 0x69); (185, 0x6a);
    (186, 0x6b); (187, 0x6c); (188, 0x6d); (189, 0x6e); (190, 0x6f); (191, 0x70); (192, 0x71); (193, 0x72);
    (194, 0x73) ].
Definition hid_table (code : N) : N :=
  match assoc hid_pairs code with Some h => h | None => 0 end.

(* usb-gadget.c:56-88 (get_modifier) with the masks of usb-gadget.h:13-20; 0 for
   other keys *)
Definition get_modifier (code : N) : N :=
  match assoc [(42, 0x2); (54, 0x20); (29, 0x1); (97, 0x10); (56, 0x4); (100, 0x40); (125, 0x8); (126, 0x80)] code with
  | Some m => m
  | None => 0
  end.

(* usb-gadget.c:16-18: the static variables mods (uint8_t) and keys[6] *)
Record gst := mkG { g_mods : N; g_keys : list N }.
Definition g_init : gst := mkG 0 (repeat 0 6).

(* usb-gadget.c:90-104 (update_modifier_state); None for -1.  mods &= ~mod in
   uint8_t. *)
Definition update_modifier_state (g : gst) (code : N) (state : Z) : option gst :=
  let m := get_modifier code in
  if m =? 0 then None
  else Some (mkG (if (state =? 0)%Z then N.ldiff (g_mods g) m else N.lor (g_mods g) m) (g_keys g)).

(* usb-gadget.c:119-126: the first empty slot *)
Fixpoint put_key (keys : list N) (h : N) : list N :=
  match keys with
  | [] => []
  | x :: r => if x =? 0 then h :: r else x :: put_key r h
  end.

(* usb-gadget.c:106-127 (update_key_state) *)
Definition update_key_state (g : gst) (code : N) (state : Z) : gst :=
  let h := hid_table code in
  let set := existsb (fun x => x =? h) (g_keys g) in
  let ks := if (state =? 0)%Z then map (fun x => if x =? h then 0 else x) (g_keys g) else g_keys g in
  mkG (g_mods g) (if negb (state =? 0)%Z && negb set then put_key ks h else ks).

(* usb-gadget.c:42-54 (send_hid_report): the modifier byte and the six key bytes;
   the reserved byte is never initialised and omitted here *)
Definition report (g : gst) : N * list N := (g_mods g, g_keys g).

(* usb-gadget.c:152-158 (vkbd_send_key) *)
Definition gadget_send_key (g : gst) (code : N) (state : Z) : gst * (N * list N) :=
  let g' := match update_modifier_state g code state with
            | Some g' => g'
            | None => update_key_state g code state
            end in
  (g', report g').
