(* Specification vocabulary for C44: what is typed on the devices and what appears on
   the virtual keyboard and pointer. *)
From Verif Require Import Base Keys Types Kbd Config SpecMods SpecLookup SpecPlain Device Daemon.
Local Open Scope N_scope.

(* mouse buttons, which have codes of their own in keyd, and the keys zoom and
   voicecommand, which do too *)
Definition buttons : list N := [0x110; 0x111; 0x112; 0x113; 0x114; 0x115; 0x116].
Definition renamed : list N := [0x174; 0x246].
(* codes below 256 with a meaning of their own inside keyd: scroll ticks, noop, the
   external mouse, chords, the codes standing for [buttons] and [renamed] *)
Definition internal : list N :=
  [0; 148; 149; 202; 203; 195; 196; 197; 198; 199; 249; 250; 251; 252; 253; 178; 255; 177; 222].
(* evdev codes of keys other than the modifiers that keyd can tell apart *)
Definition plain_code (c : N) : Prop :=
  In c buttons \/ In c renamed \/ (c < 256 /\ ~ In c internal /\ forall bit, ~ is_modifier bit c).
(* keyd's code for an evdev code *)
Definition inside (c : N) : N :=
  match c with
  | 0x110 => 249 | 0x111 => 251 | 0x112 => 250 | 0x113 => 252 | 0x114 => 253 | 0x115 => 255 | 0x116 => 178
  | 0x174 => 177 | 0x246 => 222
  | c => c
  end.

(* key events read from the devices; value 2 is the kernel's autorepeat *)
Definition strokes_read (r : nat * rd) : list (N * bool) :=
  match snd r with
  | REvent e => if (ie_type e =? 1) && negb (ie_value e =? 2)%Z then [(ie_code e, (ie_value e =? 1)%Z)] else []
  | _ => []
  end.
(* of these, those that change the state of a key, with n keys held at most *)
Fixpoint accepted (n : nat) (held : list N) (evs : list (N * bool)) : list (N * bool) :=
  match evs with
  | [] => []
  | (c, true) :: r =>
      if in_dec N.eq_dec c held then accepted n held r
      else if (length held <? n)%nat then (c, true) :: accepted n (c :: held) r
      else accepted n held r
  | (c, false) :: r =>
      if in_dec N.eq_dec c held then (c, false) :: accepted n (remove N.eq_dec c held) r
      else accepted n held r
  end.
(* the events of keys and buttons written to the virtual pointer (true) and the
   virtual keyboard (false) *)
Definition written (vs : list vev) : list uout :=
  flat_map (fun v => match v with VKey c s => [write_key_event c (if s then 1 else 0)%Z] | _ => [] end) vs.
(* the same evdev event *)
Definition as_read (x : N * bool) : uout :=
  (existsb (N.eqb (fst x)) buttons, mkIev 1 (fst x) (if snd x then 1 else 0)%Z).

(* a key left alone in state k: not bound by any layer in effect and in no chord of
   such a layer *)
Definition left_alone (k : kbd) (x : N) : Prop := resolves k x (DKey x 0) 0 /\ unchorded k x.
(* What a device may deliver: nothing, key events of such keys, and events that keyd
   does not look at (synchronisation, scan codes) *)
Definition plain_read (k : kbd) (r : rd) : Prop :=
  match r with
  | RAgain => True
  | RError => False
  | REvent e =>
      if ie_type e =? 1
      then plain_code (ie_code e) /\ left_alone k (inside (ie_code e)) /\ (0 <= ie_value e <= 2)%Z
      else ~ In (ie_type e) [2; 3; 17]
  end.
(* a round of the loop in which only devices of the keyboard p are used *)
Definition plain_round (devs : list device) (p : kptr) (k : kbd) (r : round) : Prop :=
  r_clients r = [] /\ r_added r = []
  /\ forall i x, In x (r_reads r i) ->
       plain_read k x /\ exists dv, nth_error devs i = Some dv /\ dv_data dv = Some p.
