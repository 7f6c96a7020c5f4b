(* Specification vocabulary for C87: a keyboard that is left alone. *)
From Verif Require Import Base Keys Types MacroExec Kbd SpecLookup SpecTimer.

(* [left_alone] with the number of calls *)
Inductive ticks : nat -> kbd -> Z -> Z -> kbd -> Z -> Z -> Prop :=
| tk_none k d T : ticks 0 k d T k d T
| tk_call n k d T fuel k1 d1 k2 d2 T2 :
    (0 < d)%Z -> process_event fuel k 0%N false (T + d)%Z = Ok (k1, d1) ->
    ticks n k1 d1 (T + d)%Z k2 d2 T2 -> ticks (S n) k d T k2 d2 T2.

(* nothing undecided and no macro repeating *)
Definition settled (k : kbd) : Prop := idle k /\ k_amacro k = None.
(* what may still be sent then: a layer ends, and the modifiers follow *)
Definition ending (e : oev) : Prop :=
  match e with
  | OLayer _ on _ => on = false
  | OKey c _ => exists mask, In (mask, c) modifiers
  | _ => False
  end.
