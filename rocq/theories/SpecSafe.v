(* Specification vocabulary for C67: when the daemon leaves the ground of the C standard,
   and when it aborts. *)
From Coq Require Import ZArith.
From Verif Require Import Base Types Keys Str Kbd Config SpecText SpecHist Match Device Daemon SpecDaemon.
Local Open Scope N_scope.

(* a call of the handler that binds a key while some keyboard is in the middle of a chord *)
Definition hasty (x : dstate * event * Z * Z) : Prop :=
  match x with
  | (d, EvClient _ m _ _, _, _) => i_type m = IBind /\ Exists striking (d_ents d)
  | _ => False
  end.
(* a client's message is heard *)
Definition heard (m : imsg) : Prop := i_sz m < 4096 /\ i_timeout m <= 1000000.
(* the keyboard last used is no longer there *)
Definition gone (d : dstate) : Prop := exists p, d_active d = Some p /\ ~ live d p.

Definition fits (z : Z) : Prop := (-2147483648 <= z < 2147483648)%Z.
(* the counters of scroll mode overflow: the sum is no int, or it is the least int and is
   negated *)
Definition overflows (s : scroll) (x y : Z) : Prop :=
  s_sens s <> 0%Z /\
  (~ fits (s_x s + x) \/ ~ fits (s_y s + y)
   \/ s_sens s = (-1)%Z /\ (s_x s + x = -2147483648)%Z
   \/ (s_sens s = 1%Z \/ s_sens s = (-1)%Z) /\ (s_y s + y = -2147483648)%Z).

Inductive fault (d : dstate) : event -> Prop :=
(* the timer of a keyboard that is gone *)
| fault_timer : gone d -> fault d EvTimeout
(* a button of a mouse without configuration, while the keyboard last used is gone *)
| fault_mouse i de dv : nth_error (d_devs d) i = Some dv -> dv_data dv = None -> dv_virtual dv = false ->
    N.land (dv_caps dv) CAP_MOUSE <> 0 -> de_type de = DevKey \/ de_type de = DevScroll -> gone d -> fault d (EvDev i de)
(* a new listener is told the layers of a keyboard that is gone *)
| fault_listener con m texts grabs : heard m -> i_type m = IListen -> length (d_lst d) <> 32%nat -> gone d ->
    fault d (EvClient con m texts grabs)
(* motion in scroll mode *)
| fault_motion i de dv p k : nth_error (d_devs d) i = Some dv -> dv_data dv = Some p -> deref d p = Ok k ->
    de_type de = DevMove -> s_active (k_scroll k) = true -> overflows (k_scroll k) (de_x de) (de_y de) -> fault d (EvDev i de)
(* reading the files again: the first one whose parsing does not end well is one on which it is undefined *)
| fault_reload con m pre text post grabs : heard m -> i_type m = IReload ->
    Forall (fun t => exists o, config_parse t = Ok o) pre -> config_parse text = UB ->
    fault d (EvClient con m (pre ++ text :: post) grabs).

(* the device of an event is in the table *)
Definition in_table (d : dstate) (ev : event) : Prop :=
  match ev with EvDev i _ | EvAdd i _ => (i < length (d_devs d))%nat | _ => True end.
(* the assertions and limits an event may run into *)
Inductive aborts : event -> crash -> Prop :=
| aborts_timer x : limit x -> aborts EvTimeout x
| aborts_device i de x : limit x -> de_type de = DevKey \/ de_type de = DevScroll -> aborts (EvDev i de) x
(* more than five arguments, or a UTF-8 sequence cut short *)
| aborts_bind con m texts grabs x : heard m -> i_type m = IBind -> x = CFnArgs \/ x = CUtf8 -> aborts (EvClient con m texts grabs) x
| aborts_text con m texts grabs : heard m -> i_type m = IInput \/ i_type m = IMacro -> ~ seven_bit (i_data m) ->
    aborts (EvClient con m texts grabs) CUtf8
| aborts_reload con m pre text post grabs x : heard m -> i_type m = IReload ->
    Forall (fun t => exists o, config_parse t = Ok o) pre -> config_parse text = Crash x ->
    aborts (EvClient con m (pre ++ text :: post) grabs) x.

(* ---- quiet runs ----------------------------------------------------------------------------- *)
(* values that cannot overflow a counter; positions that can be scaled, from devices whose axes have a range *)
Definition modest (ax : axes) (r : rd) : Prop :=
  match r with
  | REvent e =>
      (ie_type e = 2 -> (Z.abs (ie_value e) < 2147483648 - 32768)%Z) /\
      (ie_type e = 3 -> ie_code e = 0 -> (Z.abs (ie_value e) < 2097152)%Z /\ ax_w ax <> 0) /\
      (ie_type e = 3 -> ie_code e = 1 -> (Z.abs (ie_value e) < 2097152)%Z /\ ax_h ax <> 0)
  | _ => True
  end.
Record ordinary (r : round) (l : lstate) : Prop := {
  or_reads : forall i dv, nth_error (d_devs (lp_d l)) i = Some dv -> Forall (modest (dv_axes dv)) (r_reads r i);
  or_clients : Forall (fun '(_, m, _, _) => i_type m <> IReload /\ i_type m <> IBind) (r_clients r);
  or_added : Forall (fun x => unbound (fst x)) (r_added r) }.
(* nobody reads the files again or binds keys, and the devices' values are ordinary *)
Inductive steady (fuel : nat) (wr : nat -> bool) : lstate -> Prop :=
| steady_start texts devs grabs ts l : Forall unbound devs -> start fuel wr texts devs grabs ts = Ok l -> steady fuel wr l
| steady_round r l l' : steady fuel wr l -> ordinary r l -> loop_round fuel wr r l = Ok l' -> steady fuel wr l'.
(* what may end such a run *)
Inductive stops (r : round) (l : lstate) : crash -> Prop :=
| stops_engine x : limit x -> stops r l x
| stops_text c : In c (r_clients r) -> (let '(_, m, _, _) := c in ~ seven_bit (i_data m)) -> stops r l CUtf8
| stops_devices : (64 < length (d_devs (lp_d l)) + length (r_added r))%nat -> stops r l CDevices.
