(* Specification vocabulary: complete histories of a keyboard, and what its
   trace of layer notifications says. *)
From Verif Require Import Base Keys Types Kbd Config Outside.

(* a chord attempt is under way *)
Definition striking (k : kbd) : Prop :=
  h_state (k_chord k) = CsDisambiguation \/ h_state (k_chord k) = CsHold.

(* Everything the daemon does to one keyboard (compare [reach] in Hist.v), live
   rebinding excepted while a chord attempt is under way: see
   C04_rebind_during_chord_refuted.  clk is the value of the activation clock
   shared by all keyboards when this one was created. *)
Inductive history (c : config) (clk : Z) : kbd -> Prop :=
| hi_init : (1 <= clk)%Z -> history c clk (new_keyboard c clk)
| hi_events k fuel evs k' t :
    history c clk k -> kbd_process_events fuel k evs = Ok (k', t) -> history c clk k'
| hi_eval k exp k' ok :
    history c clk k -> ~ striking k -> kbd_eval k exp = Ok (k', ok) -> history c clk k'
| hi_outside k k' : history c clk k -> outside k k' -> history c clk k'.

(* number of activation / deactivation messages for layer i *)
Fixpoint messages (i : nat) (on : bool) (out : list oev) : nat :=
  match out with
  | [] => 0
  | OLayer j b _ :: r => (if Nat.eqb j i && Bool.eqb b on then 1 else 0) + messages i on r
  | _ :: r => messages i on r
  end.

(* the trace (newest first) up to and including the latest activation of layer i *)
Fixpoint since_start (i : nat) (out : list oev) : list oev :=
  match out with
  | [] => []
  | OLayer j true b :: r => if Nat.eqb j i then out else since_start i r
  | _ :: r => since_start i r
  end.
(* layer i was last activated before layer j was *)
Definition activated_before (out : list oev) (i j : nat) : Prop :=
  length (since_start i out) < length (since_start j out).

Definition layout (c : config) (i : nat) : Prop := ly_type (nth i (c_layers c) zero_layer) = LLayout.
Definition on (k : kbd) (i : nat) : Prop := l_active (k_ls k i) <> 0%N.

(* abnormal stops the engine can come to: the assertions of keyboard.c and the
   fixed sizes of its queues *)
Inductive limit : crash -> Prop :=
| lim_chord_queue : limit CChordQueue       (* > 32 events during a chord attempt *)
| lim_pending : limit CPendingQueue         (* > 32 events behind an undecided key *)
| lim_timers : limit CTimeouts              (* > 64 unexpired timers *)
| lim_chords : limit CActiveChords          (* > 3 chords held *)
| lim_inactive : limit CLayerInactive.      (* deactivating an inactive layer *)
