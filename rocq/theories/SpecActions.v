(* Specification vocabulary for single actions (C11-C14, C18, C22, C23, C28, C29). *)
From Verif Require Import Base Keys Types Kbd SpecMods SpecLookup SpecHist.

(* number of activations, toggles and pending oneshots of layer i *)
Definition count (k : kbd) (i : nat) : N := l_active (k_ls k i).
Definition oneshots (k : kbd) (i : nat) : N := l_depth (k_ls k i).
Definition toggled (k : kbd) (i : nat) : bool := l_toggled (k_ls k i).
Definition is_layer (k : kbd) (i : nat) : Prop := i < length (c_layers (k_cfg k)).

(* the actions whose press ends pending oneshots *)
Inductive ends_oneshot : desc -> Prop :=
| eo_key c m : ends_oneshot (DKey c m)
| eo_macro m : ends_oneshot (DMacro m)
| eo_macro2 t r m : ends_oneshot (DMacro2 t r m)
| eo_command c : ends_oneshot (DCommand c)
| eo_toggle l : ends_oneshot (DToggle l)
| eo_togglem l m : ends_oneshot (DToggleM l m).
(* the actions whose press leaves them alone *)
Inductive keeps_oneshot : desc -> Prop :=
| ko_layer l : keeps_oneshot (DLayer l)
| ko_layerm l m : keeps_oneshot (DLayerM l m)
| ko_oneshot l : keeps_oneshot (DOneshot l)
| ko_oneshotm l m : keeps_oneshot (DOneshotM l m)
| ko_overload l a : keeps_oneshot (DOverload l a)
| ko_overloadt l a t : keeps_oneshot (DOverloadT l a t)
| ko_overloadt2 l a t : keeps_oneshot (DOverloadT2 l a t)
| ko_timeout a t b : keeps_oneshot (DTimeout a t b)
| ko_scroll s : keeps_oneshot (DScroll s)
| ko_scrollt s : keeps_oneshot (DScrollToggle s).

Definition oneshot_of (d : desc) (l : nat) : Prop := d = DOneshot l \/ exists m, d = DOneshotM l m.
Definition toggle_of (d : desc) (l : nat) : Prop := d = DToggle l \/ exists m, d = DToggleM l m.
(* a macro binding: macro, time to the first repetition, repetition interval *)
Definition macro_of (k : kbd) (d : desc) (m : nat) (first again : Z) : Prop :=
  (d = DMacro m /\ first = c_macro_timeout (k_cfg k) /\ again = c_macro_repeat (k_cfg k))
  \/ d = DMacro2 first again m.

(* the shell commands of a trace segment *)
Fixpoint commands (out : list oev) : list str :=
  match out with
  | [] => []
  | OCmd s :: r => s :: commands r
  | _ :: r => commands r
  end.
(* what happened between two states, newest first *)
Definition since (k k' : kbd) (new : list oev) : Prop := k_out k' = new ++ k_out k.

(* everything of the state that governs future behaviour, except the timers
   and the scratch queue of the chord machinery *)
Definition same_but_timers (k k' : kbd) : Prop :=
  exists q ts, k' = set_k_timeouts ts (set_k_chord q k) /\ h_state q = h_state (k_chord k).
