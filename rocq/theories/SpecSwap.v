(* Specification vocabulary for swap(...) (C61). *)
From Verif Require Import Base Keys Types Kbd SpecTrace SpecMods SpecLookup SpecActions.
Local Open Scope N_scope.

Definition swap_of (d : desc) (l : nat) : Prop := d = DSwap l \/ exists m, d = DSwapM l m.

(* the held key c keeps layer i on: its press activated i, or i was handed over to it *)
Definition keeps (k : kbd) (c : N) (i : nat) : Prop :=
  c <> 0 /\ exists e, In e (k_cache k) /\ ce_code e = c /\ ce_layer e = i.
(* a layer that a held key can hand over: not main, not a layout, not composite *)
Definition ordinary (k : kbd) (i : nat) : Prop := i <> 0%nat /\ ly_type (layer_of k i) = LNormal.

(* one activation goes from layer a to layer b; numbers of activations are kept modulo 256 *)
Definition moves (k k' : kbd) (a b : nat) : Prop :=
  count k a <> 0 /\
  forall i, count k' i =
    let n := if Nat.eqb i a then count k i - 1 else count k i in
    if Nat.eqb i b then (n + 1) mod 256 else n.

(* the layers switched on and off in a piece of the trace, newest first *)
Fixpoint switches (out : list oev) : list (nat * bool) :=
  match out with
  | [] => []
  | OLayer i on _ :: r => (i, on) :: switches r
  | _ :: r => switches r
  end.

(* held keys with code c, P c, are remembered as before *)
Definition bindings_kept (P : N -> Prop) (k k' : kbd) : Prop :=
  forall e, In e (k_cache k) -> ce_code e <> 0 -> P (ce_code e) -> In e (k_cache k').

(* the modifiers down are those of the active layers *)
Definition mods_of_layers (k : kbd) : Prop :=
  forall bit c, is_modifier bit c ->
    (host_down (k_out k) c = true <-> exists i, layer_active k i /\ in_set bit (layer_mods k i)).
Definition no_raw_mods (c : config) : Prop := forall bit mc, is_modifier bit mc -> macros_avoid mc c.
