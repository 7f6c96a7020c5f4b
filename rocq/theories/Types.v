(* Data types: config.h, macro.h, keyboard.h.  Arrays indexed by a key code
   (uint8_t) are total functions on N; counted arrays are lists whose length
   is the count. *)
From Verif Require Import Base.

(* ---- macro.h:7-27 (struct macro_entry, struct macro) ------------------ *)
Inductive mtype := MKeySeq | MHold | MRelease | MUnicode | MTimeout.
(* data is a uint16_t *)
Record mentry := mkM { m_type : mtype; m_data : N }.
(* entries[256] with sz <= 256 *)
Definition macro := list mentry.

(* ---- config.h:27-70 (enum op, union descriptor_arg, struct descriptor) --
   The tagged struct {op; args[3]} becomes an inductive type; layer, macro,
   command and descriptor arguments are indices into the config tables. *)
Inductive desc :=
| DNone                                   (* op = 0: unbound *)
| DKey (code mods : N)                    (* OP_KEYSEQUENCE *)
| DOneshot (l : nat)                      (* OP_ONESHOT *)
| DOneshotM (l m : nat)                   (* OP_ONESHOTM *)
| DLayerM (l m : nat)                     (* OP_LAYERM *)
| DSwap (l : nat)                         (* OP_SWAP *)
| DSwapM (l m : nat)                      (* OP_SWAPM *)
| DLayer (l : nat)                        (* OP_LAYER *)
| DLayout (l : nat)                       (* OP_LAYOUT *)
| DClear                                  (* OP_CLEAR *)
| DClearM (m : nat)                       (* OP_CLEARM *)
| DOverload (l a : nat)                   (* OP_OVERLOAD *)
| DOverloadT (l a : nat) (t : Z)          (* OP_OVERLOAD_TIMEOUT *)
| DOverloadT2 (l a : nat) (t : Z)         (* OP_OVERLOAD_TIMEOUT_TAP *)
| DOverloadI (a1 a2 : nat) (t : Z)        (* OP_OVERLOAD_IDLE_TIMEOUT *)
| DToggle (l : nat)                       (* OP_TOGGLE *)
| DToggleM (l m : nat)                    (* OP_TOGGLEM *)
| DMacro (m : nat)                        (* OP_MACRO *)
| DMacro2 (t r : Z) (m : nat)             (* OP_MACRO2 *)
| DCommand (c : nat)                      (* OP_COMMAND *)
| DTimeout (a1 : nat) (t : Z) (a2 : nat)  (* OP_TIMEOUT *)
| DScrollToggle (s : Z)                   (* OP_SCROLL_TOGGLE *)
| DScroll (s : Z)                         (* OP_SCROLL *)
.

(* d->op != 0 *)
Definition has_op (d : desc) : bool := match d with DNone => false | _ => true end.

(* config.h:72-77 (struct chord): keys[0..sz-1] as a list *)
Record chord := mkChord { ch_keys : list N; ch_d : desc }.
Definition zero_chord : chord := mkChord [] DNone.

(* config.h:87-105 (struct layer) *)
Inductive ltype := LNormal | LLayout | LComposite.
Definition is_layout (t : ltype) : bool := match t with LLayout => true | _ => false end.
Definition is_composite (t : ltype) : bool := match t with LComposite => true | _ => false end.
Definition is_normal (t : ltype) : bool := match t with LNormal => true | _ => false end.


Record layer := mkLayer {
  ly_name : str;
  ly_type : ltype;
  ly_mods : N;
  ly_keymap : N -> desc;
  ly_chords : list chord;
  ly_const : list nat
}.
Definition set_ly_name (v : str) (r : layer) : layer :=
  mkLayer v (ly_type r) (ly_mods r) (ly_keymap r) (ly_chords r) (ly_const r).
Definition set_ly_type (v : ltype) (r : layer) : layer :=
  mkLayer (ly_name r) v (ly_mods r) (ly_keymap r) (ly_chords r) (ly_const r).
Definition set_ly_mods (v : N) (r : layer) : layer :=
  mkLayer (ly_name r) (ly_type r) v (ly_keymap r) (ly_chords r) (ly_const r).
Definition set_ly_keymap (v : N -> desc) (r : layer) : layer :=
  mkLayer (ly_name r) (ly_type r) (ly_mods r) v (ly_chords r) (ly_const r).
Definition set_ly_chords (v : list chord) (r : layer) : layer :=
  mkLayer (ly_name r) (ly_type r) (ly_mods r) (ly_keymap r) v (ly_const r).
Definition set_ly_const (v : list nat) (r : layer) : layer :=
  mkLayer (ly_name r) (ly_type r) (ly_mods r) (ly_keymap r) (ly_chords r) v.

(* A zeroed struct layer (memset in config_init, config.c:896). *)
Definition zero_layer : layer := mkLayer [] LNormal 0 (fun _ => DNone) [] [].

(* config.h:111-148 (struct config); the path field is omitted (used for
   include resolution and logging only). *)
Record config := mkConfig {
  c_layers : list layer;
  c_descs : list desc;
  c_macros : list macro;
  c_cmds : list str;
  c_aliases : N -> str;
  c_wildcard : bool;
  c_ids : list (str * N);
  c_macro_timeout : Z;
  c_macro_seq_timeout : Z;
  c_macro_repeat : Z;
  c_oneshot_timeout : Z;
  c_tap_timeout : Z;
  c_chord_interkey : Z;
  c_chord_hold : Z;
  c_indicator : bool;
  c_no_guard : bool;
  c_default_layout : str
}.
Definition set_c_layers (v : list layer) (r : config) : config :=
  mkConfig v (c_descs r) (c_macros r) (c_cmds r) (c_aliases r) (c_wildcard r) (c_ids r) (c_macro_timeout r) (c_macro_seq_timeout r) (c_macro_repeat r) (c_oneshot_timeout r) (c_tap_timeout r) (c_chord_interkey r) (c_chord_hold r) (c_indicator r) (c_no_guard r) (c_default_layout r).
Definition set_c_descs (v : list desc) (r : config) : config :=
  mkConfig (c_layers r) v (c_macros r) (c_cmds r) (c_aliases r) (c_wildcard r) (c_ids r) (c_macro_timeout r) (c_macro_seq_timeout r) (c_macro_repeat r) (c_oneshot_timeout r) (c_tap_timeout r) (c_chord_interkey r) (c_chord_hold r) (c_indicator r) (c_no_guard r) (c_default_layout r).
Definition set_c_macros (v : list macro) (r : config) : config :=
  mkConfig (c_layers r) (c_descs r) v (c_cmds r) (c_aliases r) (c_wildcard r) (c_ids r) (c_macro_timeout r) (c_macro_seq_timeout r) (c_macro_repeat r) (c_oneshot_timeout r) (c_tap_timeout r) (c_chord_interkey r) (c_chord_hold r) (c_indicator r) (c_no_guard r) (c_default_layout r).
Definition set_c_cmds (v : list str) (r : config) : config :=
  mkConfig (c_layers r) (c_descs r) (c_macros r) v (c_aliases r) (c_wildcard r) (c_ids r) (c_macro_timeout r) (c_macro_seq_timeout r) (c_macro_repeat r) (c_oneshot_timeout r) (c_tap_timeout r) (c_chord_interkey r) (c_chord_hold r) (c_indicator r) (c_no_guard r) (c_default_layout r).
Definition set_c_aliases (v : N -> str) (r : config) : config :=
  mkConfig (c_layers r) (c_descs r) (c_macros r) (c_cmds r) v (c_wildcard r) (c_ids r) (c_macro_timeout r) (c_macro_seq_timeout r) (c_macro_repeat r) (c_oneshot_timeout r) (c_tap_timeout r) (c_chord_interkey r) (c_chord_hold r) (c_indicator r) (c_no_guard r) (c_default_layout r).
Definition set_c_wildcard (v : bool) (r : config) : config :=
  mkConfig (c_layers r) (c_descs r) (c_macros r) (c_cmds r) (c_aliases r) v (c_ids r) (c_macro_timeout r) (c_macro_seq_timeout r) (c_macro_repeat r) (c_oneshot_timeout r) (c_tap_timeout r) (c_chord_interkey r) (c_chord_hold r) (c_indicator r) (c_no_guard r) (c_default_layout r).
Definition set_c_ids (v : list (str * N)) (r : config) : config :=
  mkConfig (c_layers r) (c_descs r) (c_macros r) (c_cmds r) (c_aliases r) (c_wildcard r) v (c_macro_timeout r) (c_macro_seq_timeout r) (c_macro_repeat r) (c_oneshot_timeout r) (c_tap_timeout r) (c_chord_interkey r) (c_chord_hold r) (c_indicator r) (c_no_guard r) (c_default_layout r).
Definition set_c_macro_timeout (v : Z) (r : config) : config :=
  mkConfig (c_layers r) (c_descs r) (c_macros r) (c_cmds r) (c_aliases r) (c_wildcard r) (c_ids r) v (c_macro_seq_timeout r) (c_macro_repeat r) (c_oneshot_timeout r) (c_tap_timeout r) (c_chord_interkey r) (c_chord_hold r) (c_indicator r) (c_no_guard r) (c_default_layout r).
Definition set_c_macro_seq_timeout (v : Z) (r : config) : config :=
  mkConfig (c_layers r) (c_descs r) (c_macros r) (c_cmds r) (c_aliases r) (c_wildcard r) (c_ids r) (c_macro_timeout r) v (c_macro_repeat r) (c_oneshot_timeout r) (c_tap_timeout r) (c_chord_interkey r) (c_chord_hold r) (c_indicator r) (c_no_guard r) (c_default_layout r).
Definition set_c_macro_repeat (v : Z) (r : config) : config :=
  mkConfig (c_layers r) (c_descs r) (c_macros r) (c_cmds r) (c_aliases r) (c_wildcard r) (c_ids r) (c_macro_timeout r) (c_macro_seq_timeout r) v (c_oneshot_timeout r) (c_tap_timeout r) (c_chord_interkey r) (c_chord_hold r) (c_indicator r) (c_no_guard r) (c_default_layout r).
Definition set_c_oneshot_timeout (v : Z) (r : config) : config :=
  mkConfig (c_layers r) (c_descs r) (c_macros r) (c_cmds r) (c_aliases r) (c_wildcard r) (c_ids r) (c_macro_timeout r) (c_macro_seq_timeout r) (c_macro_repeat r) v (c_tap_timeout r) (c_chord_interkey r) (c_chord_hold r) (c_indicator r) (c_no_guard r) (c_default_layout r).
Definition set_c_tap_timeout (v : Z) (r : config) : config :=
  mkConfig (c_layers r) (c_descs r) (c_macros r) (c_cmds r) (c_aliases r) (c_wildcard r) (c_ids r) (c_macro_timeout r) (c_macro_seq_timeout r) (c_macro_repeat r) (c_oneshot_timeout r) v (c_chord_interkey r) (c_chord_hold r) (c_indicator r) (c_no_guard r) (c_default_layout r).
Definition set_c_chord_interkey (v : Z) (r : config) : config :=
  mkConfig (c_layers r) (c_descs r) (c_macros r) (c_cmds r) (c_aliases r) (c_wildcard r) (c_ids r) (c_macro_timeout r) (c_macro_seq_timeout r) (c_macro_repeat r) (c_oneshot_timeout r) (c_tap_timeout r) v (c_chord_hold r) (c_indicator r) (c_no_guard r) (c_default_layout r).
Definition set_c_chord_hold (v : Z) (r : config) : config :=
  mkConfig (c_layers r) (c_descs r) (c_macros r) (c_cmds r) (c_aliases r) (c_wildcard r) (c_ids r) (c_macro_timeout r) (c_macro_seq_timeout r) (c_macro_repeat r) (c_oneshot_timeout r) (c_tap_timeout r) (c_chord_interkey r) v (c_indicator r) (c_no_guard r) (c_default_layout r).
Definition set_c_indicator (v : bool) (r : config) : config :=
  mkConfig (c_layers r) (c_descs r) (c_macros r) (c_cmds r) (c_aliases r) (c_wildcard r) (c_ids r) (c_macro_timeout r) (c_macro_seq_timeout r) (c_macro_repeat r) (c_oneshot_timeout r) (c_tap_timeout r) (c_chord_interkey r) (c_chord_hold r) v (c_no_guard r) (c_default_layout r).
Definition set_c_no_guard (v : bool) (r : config) : config :=
  mkConfig (c_layers r) (c_descs r) (c_macros r) (c_cmds r) (c_aliases r) (c_wildcard r) (c_ids r) (c_macro_timeout r) (c_macro_seq_timeout r) (c_macro_repeat r) (c_oneshot_timeout r) (c_tap_timeout r) (c_chord_interkey r) (c_chord_hold r) (c_indicator r) v (c_default_layout r).
Definition set_c_default_layout (v : str) (r : config) : config :=
  mkConfig (c_layers r) (c_descs r) (c_macros r) (c_cmds r) (c_aliases r) (c_wildcard r) (c_ids r) (c_macro_timeout r) (c_macro_seq_timeout r) (c_macro_repeat r) (c_oneshot_timeout r) (c_tap_timeout r) (c_chord_interkey r) (c_chord_hold r) (c_indicator r) (c_no_guard r) v.

(* ---- keyboard.h ---------------------------------------------------------- *)
(* keyboard.h:20-25 (struct cache_entry); code 0 = free slot *)
Record centry := mkCe { ce_code : N; ce_d : desc; ce_dl : nat; ce_layer : nat }.
Definition zero_ce : centry := mkCe 0 DNone 0 0.

(* keyboard.h:27-31 (struct key_event) *)
Record kev := mkKev { ev_code : N; ev_pressed : bool; ev_time : Z }.

(* Observable effects, newest first in the trace:
   OKey    output.send_key(code, state)
   OLayer  output.on_layer_change(kbd, &layers[idx], state); the third
           component is the layer indicator value that daemon.c:144-157
           computes from the keyboard at that moment (some non-layout layer
           active)
   OCmd    execute_command(cmd)
   OSleep  usleep(us) *)
Inductive oev :=
| OKey (code : N) (pressed : bool)
| OLayer (idx : nat) (on : bool) (ind : bool)
| OCmd (cmd : str)
| OSleep (us : N).

(* keyboard.h:73-77 (struct active_chord) *)
Record achord := mkAc { ac_active : bool; ac_chord : chord; ac_layer : nat }.
Definition zero_ac : achord := mkAc false zero_chord 0.

(* keyboard.h:89-94 *)
Inductive cstate := CsResolving | CsInactive | CsDisambiguation | CsHold.

(* keyboard.h:79-95 (anonymous struct chord).  start_code is written but never
   read, hence omitted.  match points into config.layers[l].chords[c] and is
   kept as the pair (l, c), dereferenced where the C code dereferences it. *)
Record chst := mkCh {
  h_queue : list kev;
  h_match : option (nat * nat);
  h_mlayer : nat;
  h_last : Z;
  h_state : cstate
}.
Definition set_h_queue (v : list kev) (r : chst) : chst :=
  mkCh v (h_match r) (h_mlayer r) (h_last r) (h_state r).
Definition set_h_match (v : option (nat * nat)) (r : chst) : chst :=
  mkCh (h_queue r) v (h_mlayer r) (h_last r) (h_state r).
Definition set_h_mlayer (v : nat) (r : chst) : chst :=
  mkCh (h_queue r) (h_match r) v (h_last r) (h_state r).
Definition set_h_last (v : Z) (r : chst) : chst :=
  mkCh (h_queue r) (h_match r) (h_mlayer r) v (h_state r).
Definition set_h_state (v : cstate) (r : chst) : chst :=
  mkCh (h_queue r) (h_match r) (h_mlayer r) (h_last r) v.

(* keyboard.h:103-108; PK_INTERRUPT_ACTION2 is never assigned by the code. *)
Inductive pkbeh := PkInterrupt1 | PkInterrupt2 | PkUninterruptible | PkTap2.

(* keyboard.h:97-115 (anonymous struct pending_key); code 0 = none.  tap_expiry
   is only ever assigned 0 (keyboard.c:1097), hence omitted. *)
Record pend := mkPend {
  p_code : N;
  p_dl : nat;
  p_expire : Z;
  p_beh : pkbeh;
  p_queue : list kev;
  p_a1 : desc;
  p_a2 : desc
}.
Definition set_p_code (v : N) (r : pend) : pend :=
  mkPend v (p_dl r) (p_expire r) (p_beh r) (p_queue r) (p_a1 r) (p_a2 r).
Definition set_p_dl (v : nat) (r : pend) : pend :=
  mkPend (p_code r) v (p_expire r) (p_beh r) (p_queue r) (p_a1 r) (p_a2 r).
Definition set_p_expire (v : Z) (r : pend) : pend :=
  mkPend (p_code r) (p_dl r) v (p_beh r) (p_queue r) (p_a1 r) (p_a2 r).
Definition set_p_beh (v : pkbeh) (r : pend) : pend :=
  mkPend (p_code r) (p_dl r) (p_expire r) v (p_queue r) (p_a1 r) (p_a2 r).
Definition set_p_queue (v : list kev) (r : pend) : pend :=
  mkPend (p_code r) (p_dl r) (p_expire r) (p_beh r) v (p_a1 r) (p_a2 r).
Definition set_p_a1 (v : desc) (r : pend) : pend :=
  mkPend (p_code r) (p_dl r) (p_expire r) (p_beh r) (p_queue r) v (p_a2 r).
Definition set_p_a2 (v : desc) (r : pend) : pend :=
  mkPend (p_code r) (p_dl r) (p_expire r) (p_beh r) (p_queue r) (p_a1 r) v.

(* keyboard.h:117-123 (layer_state); active and oneshot_depth are uint8_t *)
Record lst := mkLst {
  l_time : Z;
  l_active : N;
  l_toggled : bool;
  l_depth : N
}.
Definition set_l_time (v : Z) (r : lst) : lst :=
  mkLst v (l_active r) (l_toggled r) (l_depth r).
Definition set_l_active (v : N) (r : lst) : lst :=
  mkLst (l_time r) v (l_toggled r) (l_depth r).
Definition set_l_toggled (v : bool) (r : lst) : lst :=
  mkLst (l_time r) (l_active r) v (l_depth r).
Definition set_l_depth (v : N) (r : lst) : lst :=
  mkLst (l_time r) (l_active r) (l_toggled r) v.

(* keyboard.h:127-133 *)
Record scroll := mkScroll {
  s_x : Z;
  s_y : Z;
  s_sens : Z;
  s_active : bool
}.
Definition set_s_x (v : Z) (r : scroll) : scroll :=
  mkScroll v (s_y r) (s_sens r) (s_active r).
Definition set_s_y (v : Z) (r : scroll) : scroll :=
  mkScroll (s_x r) v (s_sens r) (s_active r).
Definition set_s_sens (v : Z) (r : scroll) : scroll :=
  mkScroll (s_x r) (s_y r) v (s_active r).
Definition set_s_active (v : bool) (r : scroll) : scroll :=
  mkScroll (s_x r) (s_y r) (s_sens r) v.

(* keyboard.h:39-134 (struct keyboard).
   - inhibit_modifier_guard is set and reset around a single call
     (keyboard.c:616-618) and is a parameter of the functions concerned;
   - active_macro points into config.macros and is kept as an index;
   - clock is the static counter of get_time (keyboard.c:15-20), which C shares
     between keyboards;
   - overload_last_layer_code is never used and omitted;
   - out is the trace of observable effects (newest first). *)
Record kbd := mkKbd {
  k_cfg : config;
  k_orig : config;
  k_cache : list centry;
  k_last_out : N;
  k_last_code : N;
  k_latch : bool;
  k_amacro : option nat;
  k_amacro_layer : nat;
  k_macro_to : Z;
  k_oneshot_to : Z;
  k_repeat : Z;
  k_ovl_start : Z;
  k_last_simple : Z;
  k_timeouts : list Z;
  k_achords : list achord;
  k_chord : chst;
  k_pend : pend;
  k_ls : nat -> lst;
  k_ks : N -> bool;
  k_scroll : scroll;
  k_clock : Z;
  k_out : list oev
}.
Definition set_k_cfg (v : config) (r : kbd) : kbd :=
  mkKbd v (k_orig r) (k_cache r) (k_last_out r) (k_last_code r) (k_latch r) (k_amacro r) (k_amacro_layer r) (k_macro_to r) (k_oneshot_to r) (k_repeat r) (k_ovl_start r) (k_last_simple r) (k_timeouts r) (k_achords r) (k_chord r) (k_pend r) (k_ls r) (k_ks r) (k_scroll r) (k_clock r) (k_out r).
Definition set_k_orig (v : config) (r : kbd) : kbd :=
  mkKbd (k_cfg r) v (k_cache r) (k_last_out r) (k_last_code r) (k_latch r) (k_amacro r) (k_amacro_layer r) (k_macro_to r) (k_oneshot_to r) (k_repeat r) (k_ovl_start r) (k_last_simple r) (k_timeouts r) (k_achords r) (k_chord r) (k_pend r) (k_ls r) (k_ks r) (k_scroll r) (k_clock r) (k_out r).
Definition set_k_cache (v : list centry) (r : kbd) : kbd :=
  mkKbd (k_cfg r) (k_orig r) v (k_last_out r) (k_last_code r) (k_latch r) (k_amacro r) (k_amacro_layer r) (k_macro_to r) (k_oneshot_to r) (k_repeat r) (k_ovl_start r) (k_last_simple r) (k_timeouts r) (k_achords r) (k_chord r) (k_pend r) (k_ls r) (k_ks r) (k_scroll r) (k_clock r) (k_out r).
Definition set_k_last_out (v : N) (r : kbd) : kbd :=
  mkKbd (k_cfg r) (k_orig r) (k_cache r) v (k_last_code r) (k_latch r) (k_amacro r) (k_amacro_layer r) (k_macro_to r) (k_oneshot_to r) (k_repeat r) (k_ovl_start r) (k_last_simple r) (k_timeouts r) (k_achords r) (k_chord r) (k_pend r) (k_ls r) (k_ks r) (k_scroll r) (k_clock r) (k_out r).
Definition set_k_last_code (v : N) (r : kbd) : kbd :=
  mkKbd (k_cfg r) (k_orig r) (k_cache r) (k_last_out r) v (k_latch r) (k_amacro r) (k_amacro_layer r) (k_macro_to r) (k_oneshot_to r) (k_repeat r) (k_ovl_start r) (k_last_simple r) (k_timeouts r) (k_achords r) (k_chord r) (k_pend r) (k_ls r) (k_ks r) (k_scroll r) (k_clock r) (k_out r).
Definition set_k_latch (v : bool) (r : kbd) : kbd :=
  mkKbd (k_cfg r) (k_orig r) (k_cache r) (k_last_out r) (k_last_code r) v (k_amacro r) (k_amacro_layer r) (k_macro_to r) (k_oneshot_to r) (k_repeat r) (k_ovl_start r) (k_last_simple r) (k_timeouts r) (k_achords r) (k_chord r) (k_pend r) (k_ls r) (k_ks r) (k_scroll r) (k_clock r) (k_out r).
Definition set_k_amacro (v : option nat) (r : kbd) : kbd :=
  mkKbd (k_cfg r) (k_orig r) (k_cache r) (k_last_out r) (k_last_code r) (k_latch r) v (k_amacro_layer r) (k_macro_to r) (k_oneshot_to r) (k_repeat r) (k_ovl_start r) (k_last_simple r) (k_timeouts r) (k_achords r) (k_chord r) (k_pend r) (k_ls r) (k_ks r) (k_scroll r) (k_clock r) (k_out r).
Definition set_k_amacro_layer (v : nat) (r : kbd) : kbd :=
  mkKbd (k_cfg r) (k_orig r) (k_cache r) (k_last_out r) (k_last_code r) (k_latch r) (k_amacro r) v (k_macro_to r) (k_oneshot_to r) (k_repeat r) (k_ovl_start r) (k_last_simple r) (k_timeouts r) (k_achords r) (k_chord r) (k_pend r) (k_ls r) (k_ks r) (k_scroll r) (k_clock r) (k_out r).
Definition set_k_macro_to (v : Z) (r : kbd) : kbd :=
  mkKbd (k_cfg r) (k_orig r) (k_cache r) (k_last_out r) (k_last_code r) (k_latch r) (k_amacro r) (k_amacro_layer r) v (k_oneshot_to r) (k_repeat r) (k_ovl_start r) (k_last_simple r) (k_timeouts r) (k_achords r) (k_chord r) (k_pend r) (k_ls r) (k_ks r) (k_scroll r) (k_clock r) (k_out r).
Definition set_k_oneshot_to (v : Z) (r : kbd) : kbd :=
  mkKbd (k_cfg r) (k_orig r) (k_cache r) (k_last_out r) (k_last_code r) (k_latch r) (k_amacro r) (k_amacro_layer r) (k_macro_to r) v (k_repeat r) (k_ovl_start r) (k_last_simple r) (k_timeouts r) (k_achords r) (k_chord r) (k_pend r) (k_ls r) (k_ks r) (k_scroll r) (k_clock r) (k_out r).
Definition set_k_repeat (v : Z) (r : kbd) : kbd :=
  mkKbd (k_cfg r) (k_orig r) (k_cache r) (k_last_out r) (k_last_code r) (k_latch r) (k_amacro r) (k_amacro_layer r) (k_macro_to r) (k_oneshot_to r) v (k_ovl_start r) (k_last_simple r) (k_timeouts r) (k_achords r) (k_chord r) (k_pend r) (k_ls r) (k_ks r) (k_scroll r) (k_clock r) (k_out r).
Definition set_k_ovl_start (v : Z) (r : kbd) : kbd :=
  mkKbd (k_cfg r) (k_orig r) (k_cache r) (k_last_out r) (k_last_code r) (k_latch r) (k_amacro r) (k_amacro_layer r) (k_macro_to r) (k_oneshot_to r) (k_repeat r) v (k_last_simple r) (k_timeouts r) (k_achords r) (k_chord r) (k_pend r) (k_ls r) (k_ks r) (k_scroll r) (k_clock r) (k_out r).
Definition set_k_last_simple (v : Z) (r : kbd) : kbd :=
  mkKbd (k_cfg r) (k_orig r) (k_cache r) (k_last_out r) (k_last_code r) (k_latch r) (k_amacro r) (k_amacro_layer r) (k_macro_to r) (k_oneshot_to r) (k_repeat r) (k_ovl_start r) v (k_timeouts r) (k_achords r) (k_chord r) (k_pend r) (k_ls r) (k_ks r) (k_scroll r) (k_clock r) (k_out r).
Definition set_k_timeouts (v : list Z) (r : kbd) : kbd :=
  mkKbd (k_cfg r) (k_orig r) (k_cache r) (k_last_out r) (k_last_code r) (k_latch r) (k_amacro r) (k_amacro_layer r) (k_macro_to r) (k_oneshot_to r) (k_repeat r) (k_ovl_start r) (k_last_simple r) v (k_achords r) (k_chord r) (k_pend r) (k_ls r) (k_ks r) (k_scroll r) (k_clock r) (k_out r).
Definition set_k_achords (v : list achord) (r : kbd) : kbd :=
  mkKbd (k_cfg r) (k_orig r) (k_cache r) (k_last_out r) (k_last_code r) (k_latch r) (k_amacro r) (k_amacro_layer r) (k_macro_to r) (k_oneshot_to r) (k_repeat r) (k_ovl_start r) (k_last_simple r) (k_timeouts r) v (k_chord r) (k_pend r) (k_ls r) (k_ks r) (k_scroll r) (k_clock r) (k_out r).
Definition set_k_chord (v : chst) (r : kbd) : kbd :=
  mkKbd (k_cfg r) (k_orig r) (k_cache r) (k_last_out r) (k_last_code r) (k_latch r) (k_amacro r) (k_amacro_layer r) (k_macro_to r) (k_oneshot_to r) (k_repeat r) (k_ovl_start r) (k_last_simple r) (k_timeouts r) (k_achords r) v (k_pend r) (k_ls r) (k_ks r) (k_scroll r) (k_clock r) (k_out r).
Definition set_k_pend (v : pend) (r : kbd) : kbd :=
  mkKbd (k_cfg r) (k_orig r) (k_cache r) (k_last_out r) (k_last_code r) (k_latch r) (k_amacro r) (k_amacro_layer r) (k_macro_to r) (k_oneshot_to r) (k_repeat r) (k_ovl_start r) (k_last_simple r) (k_timeouts r) (k_achords r) (k_chord r) v (k_ls r) (k_ks r) (k_scroll r) (k_clock r) (k_out r).
Definition set_k_ls (v : nat -> lst) (r : kbd) : kbd :=
  mkKbd (k_cfg r) (k_orig r) (k_cache r) (k_last_out r) (k_last_code r) (k_latch r) (k_amacro r) (k_amacro_layer r) (k_macro_to r) (k_oneshot_to r) (k_repeat r) (k_ovl_start r) (k_last_simple r) (k_timeouts r) (k_achords r) (k_chord r) (k_pend r) v (k_ks r) (k_scroll r) (k_clock r) (k_out r).
Definition set_k_ks (v : N -> bool) (r : kbd) : kbd :=
  mkKbd (k_cfg r) (k_orig r) (k_cache r) (k_last_out r) (k_last_code r) (k_latch r) (k_amacro r) (k_amacro_layer r) (k_macro_to r) (k_oneshot_to r) (k_repeat r) (k_ovl_start r) (k_last_simple r) (k_timeouts r) (k_achords r) (k_chord r) (k_pend r) (k_ls r) v (k_scroll r) (k_clock r) (k_out r).
Definition set_k_scroll (v : scroll) (r : kbd) : kbd :=
  mkKbd (k_cfg r) (k_orig r) (k_cache r) (k_last_out r) (k_last_code r) (k_latch r) (k_amacro r) (k_amacro_layer r) (k_macro_to r) (k_oneshot_to r) (k_repeat r) (k_ovl_start r) (k_last_simple r) (k_timeouts r) (k_achords r) (k_chord r) (k_pend r) (k_ls r) (k_ks r) v (k_clock r) (k_out r).
Definition set_k_clock (v : Z) (r : kbd) : kbd :=
  mkKbd (k_cfg r) (k_orig r) (k_cache r) (k_last_out r) (k_last_code r) (k_latch r) (k_amacro r) (k_amacro_layer r) (k_macro_to r) (k_oneshot_to r) (k_repeat r) (k_ovl_start r) (k_last_simple r) (k_timeouts r) (k_achords r) (k_chord r) (k_pend r) (k_ls r) (k_ks r) (k_scroll r) v (k_out r).
Definition set_k_out (v : list oev) (r : kbd) : kbd :=
  mkKbd (k_cfg r) (k_orig r) (k_cache r) (k_last_out r) (k_last_code r) (k_latch r) (k_amacro r) (k_amacro_layer r) (k_macro_to r) (k_oneshot_to r) (k_repeat r) (k_ovl_start r) (k_last_simple r) (k_timeouts r) (k_achords r) (k_chord r) (k_pend r) (k_ls r) (k_ks r) (k_scroll r) (k_clock r) v.

