(* Specification for C76: the system of SpecSystem.v with the machines of SpecWait.v, in which
   keys may be decided later. *)
From Verif Require Import Base Types Keys MacroExec Kbd Match Device Daemon SpecLookup SpecRef SpecWait SpecSystem.
Local Open Scope list_scope.

Record wsystem := WSystem { z_ms : list whole; z_out : list vev }.
Section Sys.
Variable cs : list config.
(* the keyboard at place j is given e; what waits in its queue may be struck again, and time may
   pass for it in between, until nothing is left to be struck *)
Definition attends (c : config) (x : whole) (e : kev) (l : list turn) : whole := fold_left (act c) (Given e :: l) x.
Inductive hears : list (nat * kev) -> wsystem -> Prop :=
| hs_begin : hears [] (WSystem (map start cs) [])
| hs_event evs s j c x e l :
    hears evs s -> nth_error cs j = Some c -> nth_error (z_ms s) j = Some x ->
    given l = [] -> x_todo (attends c x e l) = [] ->
    hears (evs ++ [(j, e)])
      (WSystem (upd j (attends c x e l) (z_ms s))
         (flat_map carried (firstn (length (o_log (m_host (x_m (attends c x e l)))) - length (o_log (m_host (x_m x))))
                                   (o_log (m_host (x_m (attends c x e l))))) ++ z_out s)).
(* what is heard are keys, or the passing of time (code 0), and at no moment has a machine too
   many oneshot keys waiting *)
Definition roomy (evs : list (nat * kev)) : Prop :=
  (forall x, In x evs -> physical (ev_code (snd x)) \/ ev_code (snd x) = 0%N)
  /\ (forall evs' j e rest s c x l, evs' ++ (j, e) :: rest = evs -> hears evs' s -> nth_error cs j = Some c -> nth_error (z_ms s) j = Some x ->
        given l = [] -> length (m_shots (x_m x)) < 200 /\ length (m_shots (x_m (attends c x e l))) < 200).
End Sys.
