(* Specification vocabulary for C14: overload(layer, action). *)
From Verif Require Import Base Keys Types MacroExec Kbd Config SpecHist SpecMods SpecActions SpecPlain SpecKept.

(* what may happen without another key being pressed: releases of other keys, timer
   ticks, live rebinds *)
Definition no_press (code : N) (e : kev) : Prop := ev_code e <> code /\ ev_pressed e = false.
Inductive undisturbed (G : config -> Prop) (code : N) : kbd -> kbd -> Prop :=
| ud_refl k : undisturbed G code k k
| ud_events k fuel evs k1 t k2 :
    Forall (no_press code) evs -> kbd_process_events fuel k evs = Ok (k1, t) ->
    undisturbed G code k1 k2 -> undisturbed G code k k2
| ud_eval k exp k1 ok k2 :
    kbd_eval k exp = Ok (k1, ok) -> G (k_cfg k1) ->
    undisturbed G code k1 k2 -> undisturbed G code k k2.

(* the engine has taken notice of the press of the key *)
Definition holding (k : kbd) (code : N) : Prop := In code (map ce_code (k_cache k)).

(* held from s to time: short enough for a tap *)
Definition short (c : config) (s time : Z) : Prop :=
  c_tap_timeout c = 0%Z \/ (time - s < c_tap_timeout c)%Z.

(* press and release of the action a, by the key *)
Inductive performed (k : kbd) (code : N) (a : desc) (dl : nat) (time : Z) : kbd -> Prop :=
| pf_macro m :
    a = DMacro m -> m < MAX_MACROS ->
    performed k code a dl time (execute_macro k dl (nth m (c_macros (k_cfg k)) []))
| pf_plain k1 k2 :
    (forall m, a <> DMacro m) ->
    do_desc k code a dl true time = Ok k1 -> do_desc k1 code a dl false time = Ok k2 ->
    performed k code a dl time k2.

(* one activation of layer l more or less, the modifiers following; nothing else *)
Definition only_layer (k k' : kbd) (l : nat) (on : bool) : Prop :=
  count k' l = (if on then (count k l + 1) mod 256 else count k l - 1)%N
  /\ toggled k' l = toggled k l /\ oneshots k' l = oneshots k l
  /\ (forall i, i <> l -> k_ls k' i = k_ls k i)
  /\ (exists b new, since k k' (new ++ [OLayer l on b]) /\ Forall modifier_event new)
  /\ k_cfg k' = k_cfg k /\ k_pend k' = k_pend k /\ k_amacro k' = k_amacro k
  /\ k_timeouts k' = k_timeouts k /\ k_latch k' = k_latch k /\ k_oneshot_to k' = k_oneshot_to k.
