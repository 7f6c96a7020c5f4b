(* Specification vocabulary for C63: where the keys sent to the host come from. *)
From Verif Require Import Base KeyTable Keys Types MacroExec Kbd Config Outside SpecMods.

(* keys that a step of a macro presses, modifiers apart *)
Definition step_presses (e : mentry) (x : N) : Prop :=
  match m_type e with
  | MKeySeq | MHold => x = (m_data e mod 256)%N
  | MUnicode => In x (unicode_get_sequence (m_data e))
  | MRelease | MTimeout => False
  end.

(* key x occurs on the right hand side of a binding of configuration c: in a layer, in
   an action inside another one, in a chord, in a macro *)
Inductive mentions (c : config) (x : N) : Prop :=
| men_layer l code mods : In l (c_layers c) -> ly_keymap l code = DKey x mods -> mentions c x
| men_chord l ch mods : In l (c_layers c) -> In ch (ly_chords l) -> ch_d ch = DKey x mods -> mentions c x
| men_nested mods : In (DKey x mods) (c_descs c) -> mentions c x
| men_macro m e : In m (c_macros c) -> In e m -> step_presses e x -> mentions c x.

(* a number in a macro other than a key: releasing a group of keys takes it for one
   (C27_pause_in_group_refuted) *)
Definition miscounted (c : config) (x : N) : Prop :=
  exists m e, In m (c_macros c) /\ In e m /\ x = (m_data e mod 256)%N.

(* [lived c cs s k]: a history of one keyboard that begins with configuration c, in
   which cs were the configurations in force, newest first, and s the codes of the events
   (compare [reach] in Hist.v) *)
Inductive lived (c : config) : list config -> list N -> kbd -> Prop :=
| lv_init clk : lived c [c] [] (new_keyboard c clk)
| lv_events cs s k fuel evs k' t :
    lived c cs s k -> kbd_process_events fuel k evs = Ok (k', t) ->
    lived c cs (map ev_code evs ++ s) k'
| lv_eval cs s k exp k' ok :
    lived c cs s k -> kbd_eval k exp = Ok (k', ok) -> lived c (k_cfg k' :: cs) s k'
| lv_outside cs s k k' : lived c cs s k -> outside k k' -> lived c cs s k'.

(* a key with a name, one of those listed in keys.c *)
Definition named_key (x : N) : Prop :=
  exists name alt shifted, nth_error keycode_table (N.to_nat x) = Some (Some name, alt, shifted).
