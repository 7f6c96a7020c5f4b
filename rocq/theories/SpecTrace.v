(* Specification vocabulary for the key event trace (C01, C02). *)
From Verif Require Import Base Keys Types MacroExec.
Local Open Scope N_scope.

(* The presses (true) and releases (false) of one key, oldest first, in a trace
   given newest first. *)
Definition key_history (code : N) (out : list oev) : list bool :=
  flat_map (fun o => match o with
                     | OKey c p => if c =? code then [p] else []
                     | _ => []
                     end) (rev out).

(* press, release, press, ... *)
Fixpoint alternates (next : bool) (l : list bool) : Prop :=
  match l with
  | [] => True
  | b :: r => b = next /\ alternates (negb next) r
  end.

(* A key that a macro element types or names.  The two-byte datum of every
   element counts, since a pause inside a + group is released as if it were a
   key (macro.c:102-105). *)
Definition element_names (e : mentry) (code : N) : Prop :=
  m_data e mod 256 = code
  \/ (m_type e = MKeySeq
      /\ exists mask, In (mask, code) modifiers /\ hasmod mask ((m_data e / 256) mod 256) = true)
  \/ (m_type e = MUnicode /\ In code (unicode_get_sequence (m_data e))).

(* No multi-step macro of the configuration names the key.  (A macro that is a
   single key sequence is sent like an ordinary key.) *)
Definition multi_step (m : macro) : Prop := ~ exists data, m = [mkM MKeySeq data].
Definition macros_avoid (code : N) (c : config) : Prop :=
  forall m e, In m (c_macros c) -> multi_step m -> In e m -> ~ element_names e code.
