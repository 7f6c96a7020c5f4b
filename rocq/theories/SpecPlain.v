(* Specification vocabulary for C49 and C44: typing on keys that are all bound to
   plain key sequences. *)
From Verif Require Import Base Keys Types Kbd SpecMods SpecLookup.

(* what the host is told when the output key o goes up: nothing if it is up *)
Definition lifted (out : list oev) (o : N) : list oev :=
  if host_down out o then [OKey o false] else [].
(* an event of a modifier key *)
Definition modifier_event (e : oev) : Prop := exists bit c p, e = OKey c p /\ is_modifier bit c.
(* the modifiers of the active layers *)
Definition standing (k : kbd) (bit : N) : Prop :=
  exists i, layer_active k i /\ in_set bit (layer_mods k i).
(* the number of keys whose press the engine can still remember *)
Definition spare (k : kbd) : nat := length (filter (fun e => (ce_code e =? 0)%N) (k_cache k)).

(* [types k n held out evs out']: the events evs of keys that in state k are bound
   to key sequences, of which at most n are held at a time and those in [held] at
   the outset, turn the trace out into out' (both newest first).  Every press first
   releases its output key if need be, then sets the modifiers (if they are not as
   they should be), then presses the key; every release releases the key and restores the modifiers of the layers. *)
Inductive types (k : kbd) (n : nat) : list N -> list oev -> list kev -> list oev -> Prop :=
| ty_end held out : types k n held out [] out
| ty_press held out code time rest o m dl mods out' :
    ~ In code held -> length held < n ->
    resolves k code (DKey o m) dl ->
    Forall modifier_event mods ->
    (forall bit mc, is_modifier bit mc ->
       (host_down (mods ++ lifted out o ++ out) mc = true <-> wanted k dl m bit)) ->
    ((forall bit mc, is_modifier bit mc ->
        (host_down (lifted out o ++ out) mc = true <-> wanted k dl m bit)) -> mods = []) ->
    types k n (code :: held) (OKey o true :: mods ++ lifted out o ++ out) rest out' ->
    types k n held out (mkKev code true time :: rest) out'
| ty_release held held' out code time rest o m dl mods out' :
    In code held -> (forall x, In x held' <-> In x held /\ x <> code) -> S (length held') = length held ->
    resolves k code (DKey o m) dl ->
    Forall modifier_event mods ->
    (forall bit mc, is_modifier bit mc ->
       (host_down (mods ++ lifted out o ++ out) mc = true <-> standing k bit)) ->
    ((forall bit mc, is_modifier bit mc ->
        (host_down (lifted out o ++ out) mc = true <-> standing k bit)) -> mods = []) ->
    types k n held' (mods ++ lifted out o ++ out) rest out' ->
    types k n held out (mkKev code false time :: rest) out'
| ty_ignored held out e rest out' :          (* a key pressed twice, a stray release, no room *)
    (if ev_pressed e then In (ev_code e) held \/ n <= length held else ~ In (ev_code e) held) ->
    types k n held out rest out' ->
    types k n held out (e :: rest) out'.

(* strokes of a keyboard with up to n keys held: keys that are up are pressed, keys
   that are down released *)
Fixpoint strokes (n : nat) (held : list N) (evs : list kev) : Prop :=
  match evs with
  | [] => True
  | e :: rest =>
      if ev_pressed e
      then ~ In (ev_code e) held /\ length held < n /\ strokes n (ev_code e :: held) rest
      else In (ev_code e) held /\ strokes n (remove N.eq_dec (ev_code e) held) rest
  end.

(* the trace without the events of modifier keys *)
Definition modb (e : oev) : bool :=
  match e with
  | OKey c _ => existsb (N.eqb c) [56; 125; 42; 29; 100]%N
  | _ => false
  end.
Definition letters (out : list oev) : list oev := filter (fun e => negb (modb e)) out.

(* no oneshot layer is armed and no macro repeats *)
Definition at_rest (k : kbd) : Prop :=
  idle k /\ k_oneshot_to k = 0%Z /\ (forall i, i < nlayers k -> l_depth (k_ls k i) = 0%N) /\ k_amacro k = None.
(* an output key of its own: sent at all, and not one of the modifiers *)
Definition proper (o : N) : Prop :=
  o <> K_NOOP /\ o <> K_EXTERNAL_MOUSE /\ forall bit, ~ is_modifier bit o.
(* a key that can be typed on: up, in no chord, bound to a key sequence *)
Definition typable (k : kbd) (x : N) : Prop :=
  physical x /\ unheld k x /\ unchorded k x /\ exists o m dl, resolves k x (DKey o m) dl.
