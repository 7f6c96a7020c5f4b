(* Specification vocabulary for C80: the machine of SpecFull.v while bindings change. *)
From Verif Require Import Base Keys Types Kbd Config SpecMods SpecHist Outside SpecRef SpecWait SpecFull.
From Coq Require Import String.
Local Open Scope nat_scope.
Local Open Scope list_scope.
Local Notation length := List.length.

(* ---- the machine ---------------------------------------------------------------------- *)
(* what it does next, or the configuration in force from here on *)
Inductive move := Turn (i : turn) | Rebind (c : config).
Definition moved (x : config * full) (m : move) : config * full :=
  match m with Turn i => (fst x, act_all (fst x) (snd x) i) | Rebind c => (c, snd x) end.
Definition course (c : config) (l : list move) : config * full := fold_left moved l (c, start_all c).
(* what comes from outside *)
Inductive deed := Event (e : kev) | Binding (c : config).
Definition deed_of (m : move) : list deed :=
  match m with Turn (Given e) => [Event e] | Turn _ => [] | Rebind c => [Binding c] end.
Definition deeds (l : list move) : list deed := flat_map deed_of l.

(* ---- the engine ----------------------------------------------------------------------- *)
(* what the engine remembers: the actions of keys held, of chords (held or held last) and of the
   key that waits *)
Definition kept_action (k : kbd) (d : desc) : Prop :=
  (exists e, In e (k_cache k) /\ ce_code e <> 0%N /\ ce_d e = d)
  \/ (exists ac, In ac (k_achords k) /\ ch_d (ac_chord ac) = d)
  \/ (p_code (k_pend k) <> 0%N /\ (p_a1 (k_pend k) = d \/ p_a2 (k_pend k) = d)).
(* The parts of actions are remembered by their number in the table: under c, too, the tap of an
   overload is decided at once and an idle overload does not lead to another one.  After a reset
   the numbers are given out anew, so this may fail. *)
Definition fits (c : config) (k : kbd) : Prop := forall d, kept_action k d ->
  match d with
  | DOverload _ a => ~ is_later (action c a) /\ ~ is_idle (action c a)
  | DOverloadI a b _ => ~ is_idle (action c a) /\ ~ is_idle (action c b)
  | _ => True
  end.
(* Calls of the engine, bindings and resets, none while a chord is tried.  G: what is asked of the
   configurations, F: of what is remembered at a binding, R: whether there may be resets. *)
Inductive session (G : config -> Prop) (F : config -> kbd -> Prop) (R : Prop) (c : config) (clk : Z) : list deed -> kbd -> Prop :=
| se_start : G c -> session G F R c clk [] (new_keyboard c clk)
| se_call ds k fuel e k' t : session G F R c clk ds k ->
    process_event fuel k (ev_code e) (ev_pressed e) (ev_time e) = Ok (k', t) -> session G F R c clk (ds ++ [Event e]) k'
| se_bind ds k exp k' ok : session G F R c clk ds k -> ~ striking k -> exp <> bs "reset" ->
    kbd_eval k exp = Ok (k', ok) -> G (k_cfg k') -> F (k_cfg k') k -> session G F R c clk (ds ++ [Binding (k_cfg k')]) k'
| se_reset ds k k' ok : session G F R c clk ds k -> R -> ~ striking k ->
    kbd_eval k (bs "reset") = Ok (k', ok) -> session G F R c clk (ds ++ [Binding c]) k'
| se_outside ds k k' : session G F R c clk ds k -> outside k k' -> session G F R c clk ds k'.
