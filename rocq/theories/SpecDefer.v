(* Specification vocabulary for C15-C17 and C19: keys whose action is decided after
   the press. *)
From Verif Require Import Base Keys Types Kbd SpecLookup SpecActions SpecTerm.

(* what settles the matter besides the key's own release and the lapse of time *)
Inductive meddling :=
| Nothing          (* overloadt *)
| TapOfOther       (* overloadt2: another key pressed and released: hold *)
| PressOfOther.    (* timeout: another key pressed: tap *)

(* a key that has been pressed and not been decided *)
Record waiting := mkW {
  w_key : N;            (* the key *)
  w_from : nat;         (* the layer its binding comes from *)
  w_due : Z;            (* when it counts as held *)
  w_tap : desc;         (* what it does when tapped *)
  w_hold : desc;        (* what it does when held *)
  w_med : meddling }.

(* pressing key x with binding d of layer dl at time s leaves it undecided *)
Inductive defers (c : config) (x : N) (dl : nat) (s : Z) : desc -> waiting -> Prop :=
| de_overloadt l a t :
    defers c x dl s (DOverloadT l a t) (mkW x dl (s + t) (nth a (c_descs c) DNone) (DLayer l) Nothing)
| de_overloadt2 l a t :
    defers c x dl s (DOverloadT2 l a t) (mkW x dl (s + t) (nth a (c_descs c) DNone) (DLayer l) TapOfOther)
| de_timeout a t b :
    defers c x dl s (DTimeout a t b)
      (mkW x dl (s + t) (nth a (c_descs c) DNone) (nth b (c_descs c) DNone) PressOfOther).

(* the keyboard is undecided about w; [struck] has been struck since, oldest first *)
Definition beh (m : meddling) : pkbeh :=
  match m with Nothing => PkUninterruptible | TapOfOther => PkTap2 | PressOfOther => PkInterrupt1 end.
Record undecided (k : kbd) (w : waiting) (struck : list kev) : Prop := {
  un_pend : k_pend k = mkPend (w_key w) (w_from w) (w_due w) (beh (w_med w)) struck (w_tap w) (w_hold w);
  un_key : w_key w <> 0%N;
  un_struck : Forall (fun e => ev_code e <> 0%N) struck;
  (* it is the key pressed last, and held *)
  un_last : k_last_code k = w_key w;
  un_held : exists e, In e (k_cache k) /\ ce_code e = w_key w;
  (* no chord is being struck *)
  un_still : h_state (k_chord k) = CsInactive }.
(* the same keyboard without the undecided key *)
Definition aside (k : kbd) : kbd := set_k_pend (set_p_code 0%N (set_p_queue [] (k_pend k))) k.

(* the release of a key that was down before w was pressed *)
Definition bystander (w : waiting) (struck : list kev) (e : kev) : Prop :=
  ev_code e <> 0%N /\ ev_pressed e = false /\ ev_code e <> w_key w
  /\ forall e', In e' struck -> ev_code e' <> ev_code e.

(* [settles w struck e a]: event e, which is not a bystander's release, decides that
   w does a *)
Inductive settles (w : waiting) (struck : list kev) (e : kev) : desc -> Prop :=
| by_time :
    (w_due w <= ev_time e)%Z -> settles w struck e (w_hold w)
| by_itself :
    (ev_time e < w_due w)%Z -> ev_code e = w_key w -> settles w struck e (w_tap w)
| by_press :
    (ev_time e < w_due w)%Z -> w_med w = PressOfOther ->
    ev_code e <> 0%N -> ev_code e <> w_key w -> ev_pressed e = true ->
    settles w struck e (w_tap w)
| by_tap :
    (ev_time e < w_due w)%Z -> w_med w = TapOfOther ->
    ev_code e <> 0%N -> ev_code e <> w_key w -> ev_pressed e = false ->
    settles w struck e (w_hold w).

(* [suspense w struck evs freed struck']: the events evs all come before w is due and
   do not settle the matter; [freed] of them are releases of bystanders, the others
   (timer ticks apart) add to what has been struck *)
Inductive suspense (w : waiting) : list kev -> list kev -> list kev -> list kev -> Prop :=
| su_end struck : suspense w struck [] [] struck
| su_tick struck e rest freed struck' :
    ev_code e = 0%N -> (ev_time e < w_due w)%Z ->
    suspense w struck rest freed struck' -> suspense w struck (e :: rest) freed struck'
| su_free struck e rest freed struck' :
    bystander w struck e -> (ev_time e < w_due w)%Z ->
    suspense w struck rest freed struck' -> suspense w struck (e :: rest) (e :: freed) struck'
| su_strike struck e rest freed struck' :
    ev_code e <> 0%N -> ~ bystander w struck e -> (forall a, ~ settles w struck e a) ->
    suspense w (struck ++ [e]) rest freed struck' -> suspense w struck (e :: rest) freed struck'.

(* the key takes no part in any chord, on whatever layer *)
Definition aloof (k : kbd) (code : N) : Prop :=
  (forall i ch, In ch (ly_chords (layer_of k i)) -> ~ In code (ch_keys ch))
  /\ (forall ac, In ac (k_achords k) -> ac_active ac = true -> ~ In code (ch_keys (ac_chord ac))).
Definition chordless (c : config) : Prop := forall i, ly_chords (nth i (c_layers c) zero_layer) = [].

(* kx is k with key x held as d of layer dl, pressed last, nothing undecided *)
Definition noted (k : kbd) (x : N) (d : desc) (dl : nat) (kx : kbd) : Prop :=
  exists i p q ts, i < length (k_cache k) /\ ce_code (nth i (k_cache k) zero_ce) = 0%N
    /\ p_code p = 0%N /\ p_queue p = [] /\ h_state q = h_state (k_chord k)
    /\ kx = set_k_cache (upd i (mkCe x d dl 0) (k_cache k))
              (set_k_last_code x (set_k_pend p (set_k_chord q (set_k_timeouts ts k)))).

(* bystanders are let go one after the other *)
Inductive let_go : kbd -> list kev -> kbd -> Prop :=
| lg_end k k' : same_but_timers k k' -> let_go k [] k'
| lg_next k k1 e k2 t rest k' :
    same_but_timers k k1 -> outcome k1 [e] (Ok (k2, t)) -> let_go k2 rest k' -> let_go k (e :: rest) k'.

(* [act k x a dl time k1]: key x, which is held, is given the action a of layer dl, and
   the action is pressed *)
Definition act (k : kbd) (x : N) (a : desc) (dl : nat) (time : Z) (k1 : kbd) : Prop :=
  exists pre e post, k_cache k = pre ++ e :: post /\ ce_code e = x
    /\ do_desc (set_k_cache (pre ++ mkCe x a dl 0 :: post) k) x a dl true time = Ok k1.

(* a timer for w is set; the caller has been told to call back after [delay], at
   [next], the earliest timer *)
Definition alarmed (k : kbd) (w : waiting) (delay next : Z) : Prop :=
  (0 < delay)%Z /\ In (w_due w) (k_timeouts k) /\ In next (k_timeouts k)
  /\ (forall y, In y (k_timeouts k) -> (next <= y)%Z).

(* the timers up to [time] are dropped *)
Definition rung (time : Z) (k k' : kbd) : Prop :=
  k' = set_k_timeouts (filter (fun t => (time <? t)%Z) (k_timeouts k)) k.

(* the events concern keys outside all chords; times are not negative *)
Definition apart (k : kbd) (e : kev) : Prop := (0 <= ev_time e)%Z /\ (ev_code e = 0%N \/ aloof k (ev_code e)).

(* [settled k x d dl freed a time replay k3]: pressing x (binding d of layer dl) in k
   left it undecided; bystanders let go first; the action a was pressed at [time]; then
   [replay] was processed; k3 is the result *)
Definition settled (k : kbd) (x : N) (d : desc) (dl : nat) (freed : list kev) (a : desc) (time : Z)
  (replay : list kev) (k3 : kbd) : Prop :=
  exists kx k0 k1 k2 d2, noted k x d dl kx /\ let_go kx freed k0 /\ act k0 x a dl time k1
    /\ outcome k1 replay (Ok (k2, d2)) /\ rung time k2 k3.
