(* keys.h / keys.c: key codes, modifiers and the key-sequence notation. *)
From Coq Require Import String.
From Verif Require Import Base KeyTable.
Local Open Scope N_scope.

(* ---- keys.h: modifier masks (lines 13-17) ------------------------------- *)
Definition MOD_ALT : N := 1.
Definition MOD_SUPER : N := 2.
Definition MOD_SHIFT : N := 4.
Definition MOD_CTRL : N := 8.
Definition MOD_ALT_GR : N := 16.

(* ---- keys.h: key codes used by the code (lines 32-290) ------------------ *)
Definition K_ESC : N := 1.
Definition K_BACKSPACE : N := 14.
Definition K_TAB : N := 15.
Definition K_ENTER : N := 28.
Definition K_LEFTCTRL : N := 29.
Definition K_LEFTSHIFT : N := 42.
Definition K_LEFTALT : N := 56.
Definition K_SPACE : N := 57.
Definition K_RIGHTALT : N := 100.
Definition K_LEFTMETA : N := 125.
Definition K_SCROLL_DOWN : N := 148.
Definition K_SCROLL_UP : N := 149.
Definition K_SCROLL_LEFT : N := 202.
Definition K_SCROLL_RIGHT : N := 203.
Definition K_CANCEL : N := 223.
Definition K_NOOP : N := 195.
Definition K_EXTERNAL_MOUSE : N := 196.
Definition K_CHORD_1 : N := 197.
Definition K_CHORD_2 : N := 198.
Definition K_CHORD_MAX : N := 199.

(* keys.c:10-16 (modifiers[MAX_MOD]): (mask, key) in this order *)
Definition modifiers : list (N * N) :=
  [(MOD_ALT, K_LEFTALT); (MOD_ALT_GR, K_RIGHTALT); (MOD_SHIFT, K_LEFTSHIFT);
   (MOD_SUPER, K_LEFTMETA); (MOD_CTRL, K_LEFTCTRL)].

(* mask & mods != 0 *)
Definition hasmod (mask mods : N) : bool := negb (N.eqb (N.land mask mods) 0).

(* ---- keys.c:272-307 (modstring) ----------------------------------------- *)
(* The C code appends "X-" for each modifier in the order C M G S A and
   overwrites the last '-' by the terminator. *)
Definition modstring_raw (mods : N) : str :=
  (if hasmod MOD_CTRL mods then bs "C-" else [])
  ++ (if hasmod MOD_SUPER mods then bs "M-" else [])
  ++ (if hasmod MOD_ALT_GR mods then bs "G-" else [])
  ++ (if hasmod MOD_SHIFT mods then bs "S-" else [])
  ++ (if hasmod MOD_ALT mods then bs "A-" else []).
Definition modstring (mods : N) : str := removelast (modstring_raw mods).

(* The switch over the modifier letter (keys.c:314-333 and 358-377). *)
Definition mod_letter (c : N) : option N :=
  if c =? 67 then Some MOD_CTRL        (* 'C' *)
  else if c =? 77 then Some MOD_SUPER  (* 'M' *)
  else if c =? 65 then Some MOD_ALT    (* 'A' *)
  else if c =? 83 then Some MOD_SHIFT  (* 'S' *)
  else if c =? 71 then Some MOD_ALT_GR (* 'G' *)
  else None.

(* keys.c:309-344 (parse_modset): None for -1.  The loop body consumes a letter
   and, unless the string ends there, a dash. *)
Fixpoint parse_modset_from (acc : N) (s : str) : option N :=
  match s with
  | [] => Some acc
  | c :: r =>
      match mod_letter c with
      | None => None
      | Some m =>
          match r with
          | [] => Some (N.lor acc m)
          | d :: r' => if d =? 45 then parse_modset_from (N.lor acc m) r' else None
          end
      end
  end.
Definition parse_modset (s : str) : option N := parse_modset_from 0 s.

Definition opt_str_is (o : option str) (s : str) : bool :=
  match o with Some x => str_eqb x s | None => false end.

(* keys.c:382-409: linear scan of keycode_table; the shifted name is tested
   before the plain names; entries without a name are skipped.
   Result: (code, mods). *)
Fixpoint scan_table (tbl : list keyent) (i : N) (mods : N) (c : str)
  : option (N * N) :=
  match tbl with
  | [] => None
  | (name, alt, shifted) :: rest =>
      match name with
      | None => scan_table rest (i + 1) mods c
      | Some nm =>
          if opt_str_is shifted c then Some (i, N.lor mods MOD_SHIFT)
          else if str_eqb nm c || opt_str_is alt c then Some (i, mods)
          else scan_table rest (i + 1) mods c
      end
  end.

(* keys.c:354-380: strip "X-" prefixes.  c[1] == '-' is tested first, so an
   unknown letter before a dash is an error. *)
Fixpoint strip_mods (mods : N) (c : str) : option (N * str) :=
  match c with
  | x :: 45 :: r =>
      match mod_letter x with
      | None => None
      | Some m => strip_mods (N.lor mods m) r
      end
  | _ => Some (mods, c)
  end.

(* keys.c:346-412 (parse_key_sequence): Some (code, mods) for return value 0.
   C reads c[1] even if *c == 0 only when c was advanced to the terminator by
   the loop (e.g. for "C-"); the byte after the terminator is then outside the
   string.  The model treats it as "not a dash". *)
Definition parse_key_sequence (s : str) : option (N * N) :=
  match s with
  | [] => None
  | _ =>
      match strip_mods 0 s with
      | None => None
      | Some (mods, c) => scan_table keycode_table 0 mods c
      end
  end.

(* config.c:186-201 (lookup_keycode): 0 when not found; the shifted name is not
   considered. *)
Fixpoint lookup_keycode_from (tbl : list keyent) (i : N) (s : str) : N :=
  match tbl with
  | [] => 0
  | (name, alt, _) :: rest =>
      match name with
      | None => lookup_keycode_from rest (i + 1) s
      | Some nm =>
          if str_eqb nm s || opt_str_is alt s then i
          else lookup_keycode_from rest (i + 1) s
      end
  end.
Definition lookup_keycode (s : str) : N := lookup_keycode_from keycode_table 0 s.
