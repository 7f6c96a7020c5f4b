(* Specification vocabulary for C24: deadlines, and a clock that does not run
   backwards. *)
From Verif Require Import Base Keys Types MacroExec Kbd Config Outside.

(* the events come in order, none before T, the last one at T' (T if there is none) *)
Inductive ordered : Z -> list kev -> Z -> Prop :=
| or_nil T : ordered T [] T
| or_cons T e rest T' : (T <= ev_time e)%Z -> ordered (ev_time e) rest T' -> ordered T (e :: rest) T'.

(* everything that happens to a keyboard, with a clock that does not run backwards;
   T is the time of the latest event *)
Inductive timeline (c : config) : Z -> kbd -> Prop :=
| tl_init clk T : (0 <= T)%Z -> timeline c T (new_keyboard c clk)
| tl_events T k fuel evs k' d T' :
    timeline c T k -> ordered T evs T' -> kbd_process_events fuel k evs = Ok (k', d) -> timeline c T' k'
| tl_eval T k exp k' ok : timeline c T k -> kbd_eval k exp = Ok (k', ok) -> timeline c T k'
| tl_outside T k k' : timeline c T k -> outside k k' -> timeline c T k'.

(* the latest event came at T, and the caller was told to call back after d *)
Definition told (c : config) (T : Z) (k : kbd) (d : Z) : Prop :=
  exists T0 k0 fuel evs, timeline c T0 k0 /\ evs <> [] /\ ordered T0 evs T
    /\ kbd_process_events fuel k0 evs = Ok (k, d).

(* the moments at which something has to happen by itself *)
Inductive deadline (k : kbd) : Z -> Prop :=
| dl_key : p_code (k_pend k) <> 0%N -> deadline k (p_expire (k_pend k))
| dl_oneshot : k_oneshot_to k <> 0%Z -> deadline k (k_oneshot_to k)
| dl_macro m : k_amacro k = Some m -> deadline k (k_macro_to k)
| dl_chord : h_state (k_chord k) = CsDisambiguation ->
    deadline k (h_last (k_chord k) + c_chord_interkey (k_cfg k))%Z.

(* [left_alone k d T k' d' T']: nothing happens but the calls asked for: starting at time T
   in state k, told to call back after d, the engine is at T' in state k', asking for a
   call after d' *)
Inductive left_alone : kbd -> Z -> Z -> kbd -> Z -> Z -> Prop :=
| la_none k d T : left_alone k d T k d T
| la_call k d T fuel k1 d1 k2 d2 T2 :
    (0 < d)%Z -> process_event fuel k 0%N false (T + d)%Z = Ok (k1, d1) ->
    left_alone k1 d1 (T + d)%Z k2 d2 T2 -> left_alone k d T k2 d2 T2.
