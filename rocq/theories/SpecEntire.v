(* Specification for C78: the system of SpecSystem.v with the machines of SpecFull.v, in which
   keys may be decided later and there are chords. *)
From Verif Require Import Base Types Keys MacroExec Kbd Match Device Daemon SpecLookup SpecRef SpecWait SpecFull SpecSystem.
Local Open Scope list_scope.

Record csystem := CSystem { y_ms : list full; y_out : list vev }.
Section Sys.
Variable cs : list config.
(* the keyboard at place j is given e; what was held back or waits may be struck again, and time
   may pass for it in between, until nothing is left to be done *)
Definition attends_all (c : config) (x : full) (e : kev) (l : list turn) : full := fold_left (act_all c) (Given e :: l) x.
Inductive obeys : list (nat * kev) -> csystem -> Prop :=
| ob_begin : obeys [] (CSystem (map start_all cs) [])
| ob_event evs s j c x e l :
    obeys evs s -> nth_error cs j = Some c -> nth_error (y_ms s) j = Some x ->
    given l = [] -> g_todo (attends_all c x e l) = [] ->
    obeys (evs ++ [(j, e)])
      (CSystem (upd j (attends_all c x e l) (y_ms s))
         (flat_map carried (firstn (length (o_log (m_host (g_m (attends_all c x e l)))) - length (o_log (m_host (g_m x))))
                                   (o_log (m_host (g_m (attends_all c x e l))))) ++ y_out s)).
(* at no moment has a machine too many oneshot keys waiting *)
Definition ample (evs : list (nat * kev)) : Prop :=
  forall evs' j e rest s c x l, evs' ++ (j, e) :: rest = evs -> obeys evs' s -> nth_error cs j = Some c -> nth_error (y_ms s) j = Some x ->
    given l = [] -> length (m_shots (g_m x)) < 200 /\ length (m_shots (g_m (attends_all c x e l))) < 200.
(* nothing in a configuration is a oneshot *)
Definition shot_free (c : config) : Prop := no_oneshots c /\ forall i ch, In ch (ly_chords (the c i)) -> ~ oneshot_action (ch_d ch).
End Sys.
