(* Specification vocabulary for C48: a whole session of a keyboard, and the same
   session at another time of day. *)
From Verif Require Import Base Keys Types MacroExec Kbd Config SpecTerm.

(* What the daemon does with a keyboard: it hands over events (a timer is an event
   with code 0), rebinds a key, or lets other keyboards and the mouse go on. *)
Inductive call :=
| Batch (evs : list kev)
| Bind (text : str)
| Others (clock : Z)        (* other keyboards advance the activation counter *)
| Motion (x y : Z).         (* mouse motion in scroll mode *)

Inductive fate := Fine | Stopped (c : crash) | Undefined.

Definition fate_of {A} (r : res A) : fate :=
  match r with Ok _ | NoFuel => Fine | Crash c => Stopped c | UB => Undefined end.

(* [session G k calls out delays f]: starting in state k, the calls leave the output
   out (newest first), the engine asks to be called back after delays, one per batch,
   and ends with f: nothing happens after a failure.  G holds of all configurations
   in force. *)
Inductive session (G : config -> Prop) : kbd -> list call -> list oev -> list Z -> fate -> Prop :=
| se_end k : session G k [] (k_out k) [] Fine
| se_batch k evs k1 t rest out delays f :
    outcome k evs (Ok (k1, t)) -> session G k1 rest out delays f ->
    session G k (Batch evs :: rest) out (t :: delays) f
| se_batch_fails k evs r rest :
    outcome k evs r -> (forall x, r <> Ok x) ->
    session G k (Batch evs :: rest) (k_out k) [] (fate_of r)
| se_bind k text k1 ok rest out delays f :
    kbd_eval k text = Ok (k1, ok) -> G (k_cfg k1) -> session G k1 rest out delays f ->
    session G k (Bind text :: rest) out delays f
| se_bind_fails k text r rest :
    kbd_eval k text = r -> (forall x, r <> Ok x) -> r <> NoFuel ->
    session G k (Bind text :: rest) (k_out k) [] (fate_of r)
| se_others k t rest out delays f :
    session G (set_k_clock t k) rest out delays f -> session G k (Others t :: rest) out delays f
| se_motion k x y rest out delays f :
    session G (set_k_scroll (mkScroll x y (s_sens (k_scroll k)) (s_active (k_scroll k))) k) rest out delays f ->
    session G k (Motion x y :: rest) out delays f.

(* everything d ms later *)
Definition later (d : Z) (e : kev) : kev := mkKev (ev_code e) (ev_pressed e) (ev_time e + d).
Definition postpone (d : Z) (cl : call) : call :=
  match cl with Batch evs => Batch (map (later d) evs) | other => other end.
(* the clock has started, before and after *)
Definition on_the_clock (d : Z) (cl : call) : Prop :=
  match cl with Batch evs => Forall (fun e => (1 <= ev_time e)%Z /\ (1 <= ev_time e + d)%Z) evs | _ => True end.

(* No overloadi, whose idle time starts at 0, and no negative global time-outs. *)
Definition uses_idle (d : desc) : Prop := exists a b t, d = DOverloadI a b t.
Record steady (c : config) : Prop := {
  st_keymap : forall i code, ~ uses_idle (ly_keymap (nth i (c_layers c) zero_layer) code);
  st_chords : forall i ch, In ch (ly_chords (nth i (c_layers c) zero_layer)) -> ~ uses_idle (ch_d ch);
  st_nested : forall d, In d (c_descs c) -> ~ uses_idle d;
  st_settings : (0 <= c_macro_timeout c)%Z /\ (0 <= c_macro_repeat c)%Z /\ (0 <= c_oneshot_timeout c)%Z
                /\ (0 <= c_chord_interkey c)%Z /\ (0 <= c_chord_hold c)%Z }.
