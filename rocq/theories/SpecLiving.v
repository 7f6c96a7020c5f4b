(* Specification for C81: the system of SpecEntire.v with everything clients may ask for: text and
   macros to be typed, bindings, new configurations. *)
From Verif Require Import Base Types Keys MacroExec Kbd Config Match Device Daemon SpecHist SpecDaemon SpecLookup SpecRef SpecWait SpecFull SpecSystem SpecEntire SpecLive.
From Coq Require Import String.
Local Open Scope list_scope.
Local Notation length := List.length.

(* what reaches the system: a key event for the keyboard at place j, something to be typed, an
   expression to be bound, the configurations to be read *)
Inductive order := Struck (j : nat) (e : kev) | Typed (m : imsg) | Bound (exp : str) | Loaded (cs : list config).
(* the bindings in force, the configurations as they were read, the machines, and what was
   written, newest first *)
Record living := Living { z_now : list config; z_read : list config; z_ms : list full; z_out : list vev }.

(* What is typed for a client depends on the message alone: it is what a daemon without keyboards
   writes (C81_text and C81_macro say what that is). *)
Definition types (m : imsg) (vs : list vev) : Prop :=
  exists d, handle_client (fun _ => true) 0 m [] (fun _ => false) (d_init []) = Ok d /\ filter written (d_out d) = rev vs.
(* what an expression does to the bindings c of a file c0 (C31 and C72) *)
Definition changed (exp : str) (c0 c c' : config) : Prop :=
  (exp = bs "reset" /\ c' = c0) \/ (exp <> bs "reset" /\ exists ok, config_add_entry c exp = Ok (c', ok)).
Definition release (v : vev) : Prop := match v with VKey _ false => True | _ => False end.

Inductive lives : list order -> living -> Prop :=
| lv_begin : lives [] (Living [] [] [] [])
| lv_struck os s j c x e l :
    lives os s -> nth_error (z_now s) j = Some c -> nth_error (z_ms s) j = Some x ->
    given l = [] -> g_todo (attends_all c x e l) = [] ->
    lives (os ++ [Struck j e])
      (Living (z_now s) (z_read s) (upd j (attends_all c x e l) (z_ms s))
         (flat_map carried (firstn (length (o_log (m_host (g_m (attends_all c x e l)))) - length (o_log (m_host (g_m x))))
                                   (o_log (m_host (g_m (attends_all c x e l))))) ++ z_out s))
| lv_typed os s m vs : lives os s -> types m vs ->
    lives (os ++ [Typed m]) (Living (z_now s) (z_read s) (z_ms s) (rev vs ++ z_out s))
| lv_bound os s exp cs : lives os s -> length cs = length (z_now s) ->
    (forall j c0 c c', nth_error (z_read s) j = Some c0 -> nth_error (z_now s) j = Some c -> nth_error cs j = Some c' -> changed exp c0 c c') ->
    lives (os ++ [Bound exp]) (Living cs (z_read s) (z_ms s) (z_out s))
| lv_loaded os s cs vs : lives os s -> Forall release vs -> NoDup vs -> (forall x, vheld (rev vs ++ z_out s) x = false) ->
    lives (os ++ [Loaded cs]) (Living cs cs (map start_all cs) (rev vs ++ z_out s)).
(* at no moment has a machine too many oneshot keys waiting *)
Definition roomy (os : list order) : Prop :=
  forall os' j e rest s c x l, os' ++ Struck j e :: rest = os -> lives os' s -> nth_error (z_now s) j = Some c -> nth_error (z_ms s) j = Some x ->
    given l = [] -> length (m_shots (g_m x)) < 200 /\ length (m_shots (g_m (attends_all c x e l))) < 200.
(* no binding in force at any moment is a oneshot key *)
Definition shotless (os : list order) : Prop := forall a b s, a ++ b = os -> lives a s -> forall c, In c (z_now s) -> shot_free c.

(* ---- what the calls of the handler amount to --------------------------------------------- *)
(* a message within the limits *)
Definition taken (m : imsg) : bool := (i_sz m <? 4096)%N && (i_timeout m <=? 1000000)%N.
Definition text_of (m : imsg) : str := cstr (upd (N.to_nat (i_sz m)) 0%N (i_data m)).
(* the configurations in files with these texts, in the daemon's order *)
Definition readable (texts : list str) : list config :=
  rev (flat_map (fun t => match config_parse t with Ok (Some c) => [c] | _ => [] end) texts).
Definition ordered (a : option nat) (d : dstate) (ev : event) (ts : Z) : list order :=
  match ev with
  | EvClient _ m texts _ =>
      if taken m then
        match i_type m with
        | IInput | IMacro => [Typed m]
        | IBind => [Bound (text_of m)]
        | IReload => [Loaded (readable texts)]
        | _ => []
        end
      else []
  | _ => map (fun x => Struck (fst x) (snd x)) (asked a d ev ts)
  end.
Definition used_next (a : option nat) (d : dstate) (ev : event) : option nat :=
  match ev with
  | EvClient _ m _ _ => if taken m then match i_type m with IReload => None | _ => a end else a
  | _ => in_use a d ev
  end.
Fixpoint orders (a : option nat) (calls : list (dstate * event * Z)) : list order :=
  match calls with
  | [] => []
  | (d, ev, ts) :: r => ordered a d ev ts ++ orders (used_next a d ev) r
  end.

(* What is asked of clients: no bindings while a chord is tried; bindings and files stay in the
   class of C79, swap being there from the start or never; and see SpecLive.v. *)
Definition considerate (d : dstate) (ev : event) : Prop :=
  match ev with
  | EvClient _ m texts _ =>
      if taken m then
      match i_type m with
      | IBind => forall k k' ok, In k (d_ents d) -> kbd_eval k (text_of m) = Ok (k', ok) ->
          ~ striking k /\ unmixed (k_cfg k') /\ swapping (k_cfg k') = swapping (k_orig k) /\ (text_of m <> bs "reset" -> fits (k_cfg k') k)
      | IReload => forall c, In c (readable texts) -> unmixed c /\ (dawn c <= d_clock d)%Z
      | _ => True
      end
      else True
  | _ => True
  end.
(* the runs of a daemon that finds files with these texts when it starts *)
Inductive runs_from (fuel : nat) (wr : nat -> bool) (texts : list str) : lstate -> Prop :=
| rf_start devs grabs ts l : Forall unbound devs -> Daemon.start fuel wr texts devs grabs ts = Ok l -> runs_from fuel wr texts l
| rf_round r l l' : runs_from fuel wr texts l -> Forall (fun x => unbound (fst x)) (r_added r) ->
    loop_round fuel wr r l = Ok l' -> runs_from fuel wr texts l'.
