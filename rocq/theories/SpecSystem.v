(* Specification for C75: the daemon as a system of the machines of SpecRef.v, one for every
   configuration file; what the devices deliver is given to them, what they say is written. *)
From Verif Require Import Base Types Keys MacroExec Kbd Match Device Daemon SpecLookup SpecRef.
Local Open Scope list_scope.

(* what a machine says, as far as it goes to the virtual keyboard or to the shell; wheel
   keys become motion *)
Definition wheel (code : N) : bool := ((code =? 148) || (code =? 149) || (code =? 202) || (code =? 203))%N.
Definition carried (o : oev) : list vev :=
  match o with
  | OKey x p => if wheel (x mod 256) then [] else [VKey (x mod 256)%N p]
  | OLayer _ _ _ => []
  | OCmd s => [VCmd s]
  | OSleep us => [VSleep us]
  end.
(* the same part of what the daemon does *)
Definition written (v : vev) : bool := match v with VKey _ _ | VCmd _ | VSleep _ => true | _ => false end.

(* the machines, and what was written, newest first *)
Record system := System { y_ms : list machine; y_out : list vev }.
Section Sys.
Variable cs : list config.
(* an event for the keyboard at place j *)
Definition hear (s : system) (x : nat * kev) : system :=
  match nth_error cs (fst x), nth_error (y_ms s) (fst x) with
  | Some c, Some m =>
      let m' := step c m (snd x) in
      let said := firstn (length (o_log (m_host m')) - length (o_log (m_host m))) (o_log (m_host m')) in
      System (upd (fst x) m' (y_ms s)) (flat_map carried said ++ y_out s)
  | _, _ => s
  end.
Definition at_first : system := System (map begin cs) [].
Definition heard (evs : list (nat * kev)) : system := fold_left hear evs at_first.
(* what is heard are keys, or the passing of time (code 0), and no machine has too many
   oneshot keys waiting at once *)
Definition ordinary (evs : list (nat * kev)) : Prop :=
  (forall x, In x evs -> physical (ev_code (snd x)) \/ ev_code (snd x) = 0%N)
  /\ (forall n m, In m (y_ms (heard (firstn n evs))) -> length (m_shots m) < 200).
End Sys.

(* ---- which keyboard is given what ------------------------------------------------------ *)
(* n steps of a wheel: strokes of the key for its direction *)
Definition strokes (code : N) (ts : Z) : list kev := [mkKev code true ts; mkKev code false ts].
Definition wheeled (x : Z) (forth back : N) (ts : Z) : list kev :=
  concat (repeat (strokes (if (0 <? x)%Z then forth else back) ts) (Z.to_nat (Z.abs x))).
Definition keyboard_of (d : dstate) (i : nat) : option nat :=
  match nth_error (d_devs d) i with
  | Some dv => option_map snd (dv_data dv)
  | None => None
  end.
(* a mouse that keyd does not manage *)
Definition foreign (d : dstate) (i : nat) : bool :=
  match nth_error (d_devs d) i with
  | Some dv => match dv_data dv with None => negb (dv_virtual dv) && negb (N.land (dv_caps dv) CAP_MOUSE =? 0)%N | Some _ => false end
  | None => false
  end.
(* the keyboard whose device was used last, before and after a call *)
Definition in_use (a : option nat) (d : dstate) (ev : event) : option nat :=
  match ev with
  | EvDev i _ => match keyboard_of d i with Some j => Some j | None => a end
  | _ => a
  end.
Definition asked (a : option nat) (d : dstate) (ev : event) (ts : Z) : list (nat * kev) :=
  let to (o : option nat) (l : list kev) := match o with Some j => map (pair j) l | None => [] end in
  match ev with
  | EvTimeout => to a [mkKev 0 false ts]
  | EvDev i de =>
      match de_type de with
      | DevKey =>
          if foreign d i then to a (strokes 196 ts)
          else to (keyboard_of d i) [mkKev (de_code de) (negb (de_pressed de =? 0)%N) ts]
      | DevScroll =>
          if foreign d i then to a (strokes 196 ts)
          else to (keyboard_of d i) (wheeled (de_x de) 203 202 ts ++ wheeled (de_y de) 149 148 ts)
      | _ => []
      end
  | _ => []
  end.
Fixpoint requests (a : option nat) (calls : list (dstate * event * Z)) : list (nat * kev) :=
  match calls with
  | [] => []
  | (d, ev, ts) :: r => asked a d ev ts ++ requests (in_use a d ev) r
  end.

(* no client but listeners, or refused *)
Definition undisturbed (ev : event) : Prop :=
  match ev with EvClient _ m _ _ => i_type m = IListen \/ i_type m = IOther | _ => True end.
(* the calls of the handler in a run, oldest first *)
Definition calls_in (l : lstate) : list (dstate * event * Z) := map fst (rev (lp_calls l)).
(* a client's message that makes the daemon load its configurations again *)
Definition reloading (ev : event) : Prop :=
  match ev with EvClient _ m _ _ => i_type m = IReload /\ (i_sz m < 4096)%N /\ (i_timeout m <= 1000000)%N | _ => False end.
(* the configurations of a daemon, in its order *)
Definition configs (d : dstate) : list config := map k_orig (d_ents d).
