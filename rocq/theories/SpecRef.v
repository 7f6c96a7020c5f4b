(* Specification for C69: a keyboard with layers as a simple machine.  It has no
   counters, no clock, no queues and no list of timers: it knows which keys are held with
   which action, which layers are toggled on or on for one key, in which order the layers
   were switched on, and what the host sees.  (Where the held keys sit matters to swap
   only, if several keys hold the same layer.) *)
From Verif Require Import Base Keys Types MacroExec Kbd SpecDefer Outside.

(* what the host sees: keys down, the key pressed last, everything said so far (latest
   first) *)
Record host := Host { o_down : N -> bool; o_last : N; o_log : list oev }.

Record machine := Machine {
  m_held : list (N * (desc * nat));   (* keys held: action chosen at the press, layer it is from *)
  m_seats : list N;                   (* where they sit; 0: nobody *)
  m_locked : list nat;                (* layers toggled on *)
  m_shots : list nat;                 (* layers on for one key, once for each stroke *)
  m_recent : list nat;                (* layers switched on so far, latest first *)
  m_layout : nat;                     (* the layout; 0 is main *)
  m_armed : bool;                     (* a oneshot key was struck and no other key since *)
  m_until : Z;                        (* when the oneshot layers end; 0: never *)
  m_since : Z;                        (* when an overload key was struck *)
  m_struck : N;                       (* the key struck last *)
  m_repeat : option (nat * nat * Z * Z);  (* macro to repeat: layer, when, how often *)
  m_simple : Z;                       (* when a key without modifiers was last pressed or released *)
  m_host : host
}.

Definition with_held v m := Machine v (m_seats m) (m_locked m) (m_shots m) (m_recent m) (m_layout m) (m_armed m) (m_until m) (m_since m) (m_struck m) (m_repeat m) (m_simple m) (m_host m).
Definition with_seats v m := Machine (m_held m) v (m_locked m) (m_shots m) (m_recent m) (m_layout m) (m_armed m) (m_until m) (m_since m) (m_struck m) (m_repeat m) (m_simple m) (m_host m).
Definition with_locked v m := Machine (m_held m) (m_seats m) v (m_shots m) (m_recent m) (m_layout m) (m_armed m) (m_until m) (m_since m) (m_struck m) (m_repeat m) (m_simple m) (m_host m).
Definition with_shots v m := Machine (m_held m) (m_seats m) (m_locked m) v (m_recent m) (m_layout m) (m_armed m) (m_until m) (m_since m) (m_struck m) (m_repeat m) (m_simple m) (m_host m).
Definition with_recent v m := Machine (m_held m) (m_seats m) (m_locked m) (m_shots m) v (m_layout m) (m_armed m) (m_until m) (m_since m) (m_struck m) (m_repeat m) (m_simple m) (m_host m).
Definition with_layout v m := Machine (m_held m) (m_seats m) (m_locked m) (m_shots m) (m_recent m) v (m_armed m) (m_until m) (m_since m) (m_struck m) (m_repeat m) (m_simple m) (m_host m).
Definition with_shot a u m := Machine (m_held m) (m_seats m) (m_locked m) (m_shots m) (m_recent m) (m_layout m) a u (m_since m) (m_struck m) (m_repeat m) (m_simple m) (m_host m).
Definition with_since v m := Machine (m_held m) (m_seats m) (m_locked m) (m_shots m) (m_recent m) (m_layout m) (m_armed m) (m_until m) v (m_struck m) (m_repeat m) (m_simple m) (m_host m).
Definition with_struck v m := Machine (m_held m) (m_seats m) (m_locked m) (m_shots m) (m_recent m) (m_layout m) (m_armed m) (m_until m) (m_since m) v (m_repeat m) (m_simple m) (m_host m).
Definition with_repeat v m := Machine (m_held m) (m_seats m) (m_locked m) (m_shots m) (m_recent m) (m_layout m) (m_armed m) (m_until m) (m_since m) (m_struck m) v (m_simple m) (m_host m).
Definition with_simple v m := Machine (m_held m) (m_seats m) (m_locked m) (m_shots m) (m_recent m) (m_layout m) (m_armed m) (m_until m) (m_since m) (m_struck m) (m_repeat m) v (m_host m).
Definition with_host v m := Machine (m_held m) (m_seats m) (m_locked m) (m_shots m) (m_recent m) (m_layout m) (m_armed m) (m_until m) (m_since m) (m_struck m) (m_repeat m) (m_simple m) v.

Fixpoint remove_one (i : nat) (l : list nat) : list nat :=
  match l with [] => [] | j :: r => if Nat.eqb j i then r else j :: remove_one i r end.
Definition without (i : nat) (l : list nat) : list nat := filter (fun j => negb (Nat.eqb j i)) l.
Definition mem (i : nat) (l : list nat) : bool := existsb (Nat.eqb i) l.

(* the layer an action keeps on while its key is held *)
Definition keeps (d : desc) : option nat :=
  match d with DLayer l | DLayerM l _ | DOneshot l | DOneshotM l _ | DOverload l _ => Some l | _ => None end.
(* a key that sits nowhere takes the last free seat *)
Fixpoint sit (code : N) (s : list N) : list N :=
  match s with
  | [] => []
  | x :: r => if (x =? 0)%N && negb (existsb (N.eqb 0) r) then code :: r else x :: sit code r
  end.
Definition take_seat (code : N) (s : list N) : list N := if existsb (N.eqb code) s then s else sit code s.
Definition rise (code : N) (s : list N) : list N := map (fun x => if (x =? code)%N then 0%N else x) s.
Definition seated (code : N) (m : machine) : machine := with_seats (take_seat code (m_seats m)) m.
Definition kept_by (i : nat) (h : N * (desc * nat)) : bool :=
  match keeps (fst (snd h)) with Some l => Nat.eqb l i | None => false end.

(* pressing and releasing a key at the host; noop (195) and the button of a foreign mouse
   (196) are not sent, nor is what changes nothing *)
Definition say (o : oev) (h : host) : host := Host (o_down h) (o_last h) (o :: o_log h).
Definition stroke (x : N) (p : bool) (h : host) : host :=
  if (x =? 195)%N || (x =? 196)%N then h
  else
    let last := if p then x else o_last h in
    if Bool.eqb (o_down h x) p then Host (o_down h) last (o_log h)
    else Host (fupd (o_down h) x p) last (OKey x p :: o_log h).

(* alt, altgr, shift, meta, control: bit in a set of modifiers, key *)
Definition five : list (N * N) := [(1, 56); (16, 100); (4, 42); (2, 125); (8, 29)]%N.
Definition has (bit set : N) : bool := negb (N.land bit set =? 0)%N.

Section Machine.
Variable c : config.

Definition the (i : nat) : layer := nth i (c_layers c) zero_layer.
Definition layers : list nat := seq 0 (length (c_layers c)).

(* a layer is on: main, the layout, kept by a held key, toggled, or on for one key *)
Definition lit (m : machine) (i : nat) : bool :=
  Nat.eqb i 0 || Nat.eqb i (m_layout m) || existsb (kept_by i) (m_held m) || mem i (m_locked m) || mem i (m_shots m).
Definition some_layer (m : machine) : bool :=
  existsb (fun i => negb (is_layout (ly_type (the i))) && lit m i) (seq 1 (length (c_layers c) - 1)).
Definition tell (i : nat) (b : bool) (m : machine) : machine :=
  with_host (say (OLayer i b (some_layer m)) (m_host m)) m.
Definition strike (x : N) (p : bool) (m : machine) : machine := with_host (stroke x p (m_host m)) m.

(* releasing a modifier: alt and meta are not released right after they were pressed,
   unless [quiet] *)
Definition lift (quiet : bool) (x : N) (h : host) : host :=
  if (o_last h =? x)%N && ((x =? 125) || (x =? 56) || (x =? 100))%N && negb quiet && negb (c_no_guard c) && negb (o_down h 29%N)
  then stroke 29%N false (stroke x false (stroke 29%N true h)) else stroke x false h.
Definition fix1 (quiet : bool) (want : N -> bool) (h : host) (bk : N * N) : host :=
  if want (fst bk) then (if o_down h (snd bk) then h else stroke (snd bk) true h)
  else if o_down h (snd bk) then lift quiet (snd bk) h else h.
(* layer i is where the action comes from, or part of it *)
Definition origin (dl : option nat) (i : nat) : bool :=
  match dl with
  | None => false
  | Some x => Nat.eqb i x || (is_composite (ly_type (the x)) && mem i (ly_const (the x)))
  end.
Definition wants (m : machine) (dl : option nat) (mods : N) (bit : N) : bool :=
  has bit mods || existsb (fun i => lit m i && negb (origin dl i) && has bit (ly_mods (the i))) layers.
(* press and release modifiers so that those in [mods] and those of the layers on are down *)
Definition adjust (quiet : bool) (dl : option nat) (mods : N) (m : machine) : machine :=
  with_host (fold_left (fix1 quiet (wants m dl mods)) five (m_host m)) m.

(* the binding a key uses *)
Definition bound (code : N) (i : nat) : bool := has_op (ly_keymap (the i) code).
Definition matching (m : machine) (code : N) (i : nat) : bool :=
  is_composite (ly_type (the i)) && forallb (lit m) (ly_const (the i)) && bound code i && negb (Nat.eqb (length (ly_const (the i))) 0).
Definition combined (m : machine) (code : N) : list nat := filter (matching m code) layers.
Definition widest (l : list nat) : option nat :=
  find (fun i => forallb (fun j => Nat.leb (length (ly_const (the j))) (length (ly_const (the i)))) l) l.
Definition order (m : machine) : list nat := m_recent m ++ [m_layout m; 0].
Definition choose (m : machine) (code : N) : desc * nat :=
  match widest (combined m code) with
  | Some i => (ly_keymap (the i) code, i)
  | None =>
      match find (fun i => lit m i && bound code i) (order m) with
      | Some i => (ly_keymap (the i) code, i)
      | None => (DKey code 0, 0)
      end
  end.

(* ---- actions ---------------------------------------------------------------------- *)
Definition turn_on (i : nat) (m : machine) : machine := tell i true (with_recent (i :: without i (m_recent m)) m).
(* the oneshot layers end, lowest layer first *)
Definition end_shot (m : machine) (i : nat) : machine := tell i false (with_shots (remove_one i (m_shots m)) m).
Definition end_shots (m : machine) : machine :=
  with_shot false 0 (fold_left end_shot (flat_map (fun i => repeat i (count_occ Nat.eq_dec (m_shots m) i)) layers) m).
Definition unlock (m : machine) (i : nat) : machine := tell i false (with_locked (without i (m_locked m)) m).
Definition let_up (h : host) (i : nat) : host :=
  if o_down h (N.of_nat i) then Host (fupd (o_down h) (N.of_nat i) false) (o_last h) (OKey (N.of_nat i) false :: o_log h) else h.
(* everything is released, and all layers end that no held key keeps on *)
Definition reset (m : machine) : machine :=
  let m1 := end_shots m in
  let m2 := fold_left unlock (filter (fun i => mem i (m_locked m1)) (seq 1 (length (c_layers c) - 1))) m1 in
  with_host (fold_left let_up (seq 0 256) (m_host m2)) (with_repeat None m2).

Definition the_macro (n : nat) : macro := nth n (c_macros c) [].
Definition type (dl : nat) (mac : macro) (m : machine) : machine :=
  match mac with
  | [mkM MKeySeq data] =>
      strike (data mod 256)%N false (strike (data mod 256)%N true (adjust false (Some dl) ((data / 256) mod 256)%N m))
  | _ =>
      let m1 := adjust false (Some dl) 0 m in
      with_host (fold_left (fun h o => say o h) (macro_execute mac (c_macro_seq_timeout c)) (m_host m1)) m1
  end.
Definition start_macro (n : nat) (delay every : Z) (dl : nat) (t : Z) (m : machine) : machine :=
  with_repeat (Some (n, dl, (t + delay)%Z, every)) (type dl (the_macro n) (end_shots m)).
(* a key with no modifiers but shift counts as typing *)
Definition typed (mods : N) (t : Z) (m : machine) : machine :=
  if (mods =? 0)%N || (mods =? 4)%N then with_simple t m else m.
Definition press_key (x mods : N) (dl : nat) (t : Z) (m : machine) : machine :=
  let m1 := if o_down (m_host m) x then strike x false m else m in
  typed mods t (end_shots (strike x true (adjust false (Some dl) mods m1))).
Definition flip (l : nat) (m : machine) : machine :=
  let m1 := if mem l (m_locked m) then tell l false (with_locked (without l (m_locked m)) m)
            else turn_on l (with_locked (l :: m_locked m) m) in
  end_shots (adjust false None 0 m1).

(* swap, on layer dl: layer l instead of dl.  If dl is on for one key, l is from now on; else
   a key that holds dl, the first as they sit, holds l from now on. *)
Definition keeper (l : nat) (m : machine) : option N :=
  if Nat.eqb l 0 || negb (is_normal (ly_type (the l))) then None
  else find (fun x => existsb (fun h => (fst h =? x)%N && kept_by l h) (m_held m)) (m_seats m).
Definition rebind (x : N) (d : desc) (m : machine) : machine :=
  with_held (map (fun h => if (fst h =? x)%N then (x, (d, snd (snd h))) else h) (m_held m)) m.
Definition swap_to (l dl : nat) (m : machine) : machine :=
  if mem dl (m_shots m) then
    let m1 := end_shot m dl in adjust false None 0 (turn_on l (with_shots (l :: m_shots m1) m1))
  else
    match keeper dl m with
    | Some x => adjust false None 0 (turn_on l (rebind x (DLayer l) (tell dl false (rebind x DNone m))))
    | None => m
    end.

(* actions that keep no layer on *)
Definition press_plain (code : N) (d : desc) (dl : nat) (t : Z) (m : machine) : machine :=
  match d with
  | DKey x mods => press_key x mods dl t m
  | DMacro n => start_macro n (c_macro_timeout c) (c_macro_repeat c) dl t m
  | DMacro2 delay every n => start_macro n delay every dl t m
  | DToggle l => flip l m
  | DToggleM l _ => flip l m
  | DLayout l => tell l true (with_layout l (reset m))
  | DClear => reset m
  | DClearM n => type dl (the_macro n) (reset m)
  | DCommand n => adjust false None 0 (end_shots (with_host (say (OCmd (nth n (c_cmds c) [])) (m_host m)) m))
  | DSwap l => swap_to l dl m
  | DSwapM l n => type dl (the_macro n) (swap_to l dl m)
  | _ => m
  end.
(* the m variants type their macro before anything else *)
Definition prelude (d : desc) (dl : nat) (m : machine) : machine :=
  match d with
  | DLayerM _ n | DOneshotM _ n | DToggleM _ n => type dl (the_macro n) m
  | _ => m
  end.
Definition release_plain (d : desc) (t : Z) (m : machine) : machine :=
  match d with
  | DKey x mods => typed mods t (adjust false None 0 (strike x false m))
  | DSwapM _ n => match the_macro n with [mkM MKeySeq data] => adjust false None 0 (strike (data mod 256)%N false m) | _ => m end
  | _ => m
  end.

(* layer, oneshot and overload *)
Definition press_layer (code : N) (l : nat) (m : machine) : machine :=
  adjust (m_struck m =? code)%N None 0 (turn_on l m).
Definition press_shot (l dl : nat) (m : machine) : machine :=
  with_shot true (m_until m) (adjust false (Some dl) 0 (turn_on l m)).
Definition press (code : N) (d : desc) (dl : nat) (t : Z) (m : machine) : machine :=
  match d with
  | DLayer l | DLayerM l _ => press_layer code l m
  | DOneshot l | DOneshotM l _ => press_shot l dl m
  | DOverload l _ => adjust false None 0 (turn_on l (with_since t m))
  | _ => press_plain code d dl t m
  end.
Definition shot_end (t : Z) (m : machine) : Z := if (c_oneshot_timeout c =? 0)%Z then m_until m else (t + c_oneshot_timeout c)%Z.
Definition release_shot (l : nat) (t : Z) (m : machine) : machine :=
  if m_armed m then
    with_shot true (shot_end t m) (with_shots (l :: m_shots m) m)
  else adjust false None 0 (tell l false m).
(* A key of action d is struck and let go at once: a layer is on for a moment, a oneshot
   layer until the next key; overload is its own tap in turn (n bounds how often). *)
Definition flick (quiet : bool) (l : nat) (m : machine) : machine :=
  adjust quiet None 0 (end_shot (adjust quiet None 0 (turn_on l (with_shots (l :: m_shots m) m))) l).
Fixpoint tap_as (n : nat) (code : N) (d : desc) (dl : nat) (t : Z) (m : machine) : machine :=
  match d with
  | DMacro x => type dl (the_macro x) m
  | DLayer l | DLayerM l _ => flick true l (prelude d dl m)
  | DOneshot l | DOneshotM l _ =>
      let m1 := prelude d dl m in
      with_shot true (shot_end t m) (adjust false (Some dl) 0 (turn_on l (with_shots (l :: m_shots m1) m1)))
  | DOverload l a =>
      let m1 := flick false l (with_since t m) in
      match n with
      | O => m1
      | S n => if (0 <=? c_tap_timeout c)%Z then tap_as n code (nth a (c_descs c) DNone) dl t m1 else m1
      end
  | _ => release_plain d t (press_plain code d dl t (prelude d dl m))
  end.
Definition release (code : N) (d : desc) (dl : nat) (t : Z) (m : machine) : machine :=
  match d with
  | DLayer l | DLayerM l _ => adjust (m_struck m =? code)%N None 0 (tell l false m)
  | DOneshot l | DOneshotM l _ => release_shot l t m
  | DOverload l a =>
      let m1 := adjust false None 0 (tell l false m) in
      if (m_struck m =? code)%N && ((c_tap_timeout c =? 0)%Z || (t - m_since m <? c_tap_timeout c)%Z)
      then tap_as (length (c_descs c)) code (nth a (c_descs c) DNone) dl t m1 else m1
  | _ => release_plain d t m
  end.

(* ---- events ----------------------------------------------------------------------- *)
(* oneshot layers whose time is over; a macro that repeats, until the next key *)
Definition expire (t : Z) (m : machine) : machine :=
  if negb (m_until m =? 0)%Z && (m_until m <=? t)%Z then adjust false None 0 (end_shots m) else m.
Definition again (code : N) (t : Z) (m : machine) : machine :=
  match m_repeat m with
  | None => m
  | Some (n, dl, due, every) =>
      if negb (code =? 0)%N then adjust false None 0 (with_repeat None m)
      else if (due <=? t)%Z then with_repeat (Some (n, dl, (t + every)%Z, every)) (type dl (the_macro n) m)
      else m
  end.
Definition holding (code : N) (m : machine) : option (desc * nat) :=
  option_map snd (find (fun h => fst h =? code)%N (m_held m)).
(* an idle overload is its second action if nothing was typed for a while *)
Definition settle (d : desc) (t : Z) (m : machine) : desc :=
  match d with DOverloadI a1 a2 w => nth (if (w <=? t - m_simple m)%Z then a2 else a1) (c_descs c) DNone | _ => d end.
Definition begin_key (code : N) (d : desc) (dl : nat) (t : Z) (m : machine) : machine :=
  with_struck code (press code d dl t (with_held ((code, (d, dl)) :: m_held m) (seated code (prelude d dl m)))).
Definition forget (code : N) (m : machine) : machine := with_held (filter (fun h => negb (fst h =? code)%N) (m_held m)) m.
Definition leave (code : N) (m : machine) : machine := forget code (with_seats (rise code (m_seats m)) m).
(* a key is pressed or released; code 0: time passes; [pick] finds what the key does *)
Definition step_by (pick : machine -> N -> desc * nat) (m : machine) (e : kev) : machine :=
  let m := again (ev_code e) (ev_time e) (expire (ev_time e) m) in
  if (ev_code e =? 0)%N then m
  else
    match ev_pressed e, holding (ev_code e) m with
    | true, None =>
        if Nat.ltb (length (m_held m)) 16 then
          let '(d, dl) := pick m (ev_code e) in begin_key (ev_code e) (settle d (ev_time e) m) dl (ev_time e) m
        else m
    | false, Some (d, dl) => release (ev_code e) d dl (ev_time e) (leave (ev_code e) m)
    | _, _ => m
    end.
Definition step : machine -> kev -> machine := step_by choose.

Definition first_layout : nat :=
  match c_default_layout c with
  | [] => 0
  | name => match find (fun i => is_layout (ly_type (the i)) && str_eqb (ly_name (the i)) name) layers with Some i => i | None => 0 end
  end.
Definition begin : machine := Machine [] (repeat 0%N 16) [] [] [] first_layout false 0 0 0 None 0 (Host (fun _ => false) 0 []).
Definition run (evs : list kev) : machine := fold_left step evs begin.
(* The least clock at the start for which layers are switched on later than layouts are; the
   clock of the process starts at 1 (C06_first_activation_refuted). *)
Definition dawn : Z := if existsb (fun i => is_layout (ly_type (the i))) (seq 1 (length (c_layers c) - 1)) then 2%Z else 1%Z.

(* ---- the configurations meant ------------------------------------------------------- *)
(* does swap occur? *)
Definition swap_action (d : desc) : bool := match d with DSwap _ | DSwapM _ _ => true | _ => false end.
Definition swapping : bool :=
  existsb swap_action (c_descs c)
  || existsb (fun i => existsb (fun code => swap_action (ly_keymap (the i) (N.of_nat code))) (seq 0 256)
                       || existsb (fun ch => swap_action (ch_d ch)) (ly_chords (the i))) layers.
(* everything but keys decided later, chords, and toggle together with swap; the tap of an
   overload is sure in turn *)
Definition a_layer (l : nat) : Prop := l < length (c_layers c) /\ ly_type (the l) <> LLayout.
Definition plain_action (d : desc) : Prop :=
  match d with
  | DNone | DKey _ _ | DMacro _ | DMacro2 _ _ _ | DClear | DClearM _ | DCommand _ | DScroll _ | DScrollToggle _ => True
  | DToggle l | DToggleM l _ => (l <> 0 /\ a_layer l) /\ swapping = false
  | DSwap l | DSwapM l _ => a_layer l /\ swapping = true
  | DLayout l => l = 0 \/ (l < length (c_layers c) /\ ly_type (the l) = LLayout)
  | _ => False
  end.
(* overload can be the tap of overload, at most n deep *)
Fixpoint tap_action (n : nat) (d : desc) : Prop :=
  match d with
  | DLayer l | DLayerM l _ | DOneshot l | DOneshotM l _ => a_layer l
  | DOverload l a => a_layer l /\ match n with O => False | S n => tap_action n (nth a (c_descs c) DNone) end
  | _ => plain_action d
  end.
Definition sure_action (d : desc) : Prop :=
  match d with
  | DLayer l | DLayerM l _ | DOneshot l | DOneshotM l _ => a_layer l
  | DOverload l a => a_layer l /\ tap_action (length (c_descs c)) (nth a (c_descs c) DNone)
  | _ => plain_action d
  end.
Definition common_action (d : desc) : Prop :=
  match d with
  | DOverloadI a1 a2 _ => sure_action (nth a1 (c_descs c) DNone) /\ sure_action (nth a2 (c_descs c) DNone)
  | _ => sure_action d
  end.
Definition common : Prop := chordless c /\ forall i code, common_action (ly_keymap (the i) code).
(* a key decided later: whether it was tapped or held is not known at the press *)
Definition late_action (d : desc) : Prop :=
  match d with DOverloadT l _ _ | DOverloadT2 l _ _ => a_layer l | DTimeout _ _ _ => True | _ => False end.
Definition settled_action (d : desc) : Prop := sure_action d \/ late_action d.
Definition general_action (d : desc) : Prop :=
  match d with
  | DOverloadI a1 a2 _ => settled_action (nth a1 (c_descs c) DNone) /\ settled_action (nth a2 (c_descs c) DNone)
  | _ => settled_action d
  end.

End Machine.

(* everything done to a keyboard: the calls of process_event, in order *)
Inductive calls_of (c : config) (clk : Z) : list kev -> kbd -> Prop :=
| co_start : calls_of c clk [] (new_keyboard c clk)
| co_call evs k fuel e k' t : calls_of c clk evs k ->
    process_event fuel k (ev_code e) (ev_pressed e) (ev_time e) = Ok (k', t) -> calls_of c clk (evs ++ [e]) k'
| co_outside evs k k' : calls_of c clk evs k -> outside k k' -> calls_of c clk evs k'.
(* the same when events come in batches *)
Inductive batches_of (c : config) (clk : Z) : list kev -> kbd -> Prop :=
| ba_start : batches_of c clk [] (new_keyboard c clk)
| ba_batch evs k fuel b k' t : batches_of c clk evs k ->
    kbd_process_events fuel k b = Ok (k', t) -> batches_of c clk (evs ++ b) k'
| ba_outside evs k k' : batches_of c clk evs k -> outside k k' -> batches_of c clk evs k'.
(* the key events among events; the rest is passing time *)
Definition keys_among (evs : list kev) : list kev := filter (fun e => negb (ev_code e =? 0)%N) evs.

Definition oneshot_action (d : desc) : Prop := match d with DOneshot _ | DOneshotM _ _ => True | _ => False end.
Definition no_oneshots (c : config) : Prop :=
  (forall i code, ~ oneshot_action (ly_keymap (the c i) code)) /\ (forall n, ~ oneshot_action (nth n (c_descs c) DNone)).
