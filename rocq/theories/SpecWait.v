(* Specification for C74: the machine of SpecRef.v with keys decided later.  Such a key
   waits; what is struck meanwhile is queued, and once the key is decided the queue is
   struck again. *)
From Verif Require Import Base Keys Types MacroExec Kbd SpecDefer Outside SpecRef.

(* overloadt, overloadt2 and timeout *)
Inductive rule := Patient | UntilTap | Impatient.
Record waiting := Waiting {
  w_code : N; w_layer : nat;
  w_due : Z;                (* from then on the key is held *)
  w_rule : rule;
  w_tap : desc; w_hold : desc;
  w_queue : list kev        (* events since, in order *)
}.
(* the machine, the key that waits, and events to be struck again *)
Record whole := Whole { x_m : machine; x_wait : option waiting; x_todo : list kev }.

Section Wait.
Variable c : config.
Definition action (n : nat) : desc := nth n (c_descs c) DNone.

Definition waits (code : N) (d : desc) (dl : nat) (t : Z) : option waiting :=
  match d with
  | DOverloadT l a w => Some (Waiting code dl (t + w) Patient (action a) (DLayer l) [])
  | DOverloadT2 l a w => Some (Waiting code dl (t + w) UntilTap (action a) (DLayer l) [])
  | DTimeout a1 w a2 => Some (Waiting code dl (t + w) Impatient (action a1) (action a2) [])
  | _ => None
  end.
Definition among (code : N) (q : list kev) : bool := existsb (fun e => ev_code e =? code)%N q.
(* releasing a key struck before the one that waits is not put off *)
Definition passes (w : waiting) (e : kev) : bool :=
  negb (ev_code e =? 0)%N && negb (ev_pressed e) && negb (among (ev_code e) (w_queue w)) && negb (ev_code e =? w_code w)%N.
Definition verdict (w : waiting) (e : kev) : option desc :=
  if (w_due w <=? ev_time e)%Z then Some (w_hold w)
  else if (ev_code e =? 0)%N then None
  else if (ev_code e =? w_code w)%N then Some (w_tap w)
  else
    match w_rule w, ev_pressed e with
    | UntilTap, false => Some (w_hold w)     (* another key was tapped *)
    | Impatient, true => Some (w_tap w)      (* another key was struck *)
    | _, _ => None
    end.
Definition extend (w : waiting) (e : kev) : waiting :=
  if (ev_code e =? 0)%N then w
  else Waiting (w_code w) (w_layer w) (w_due w) (w_rule w) (w_tap w) (w_hold w) (w_queue w ++ [e]).

(* does a key begin to wait at this event? *)
Definition begins (m : machine) (e : kev) : option waiting :=
  let m := again c (ev_code e) (ev_time e) (expire c (ev_time e) m) in
  if (ev_code e =? 0)%N then None
  else
    match ev_pressed e, holding (ev_code e) m with
    | true, None =>
        if Nat.ltb (length (m_held m)) 16 then
          let '(d, dl) := choose c m (ev_code e) in waits (ev_code e) (settle c d (ev_time e) m) dl (ev_time e)
        else None
    | _, _ => None
    end.
(* one event *)
Definition feed (e : kev) (s : whole) : whole :=
  match x_wait s with
  | None => Whole (step c (x_m s) e) (begins (x_m s) e) (x_todo s)
  | Some w =>
      if passes w e then Whole (step c (x_m s) e) (Some w) (x_todo s)
      else
        match verdict w e with
        | None | Some DNone => Whole (x_m s) (Some (extend w e)) (x_todo s)
        | Some d =>
            let m := forget (w_code w) (x_m s) in
            let d := settle c d (ev_time e) m in
            Whole (begin_key c (w_code w) d (w_layer w) (ev_time e) m) (waits (w_code w) d (w_layer w) (ev_time e))
              (w_queue (extend w e) ++ x_todo s)
        end
  end.

(* an event from outside; the next event struck again; or, before it, time passes *)
Inductive turn := Given (e : kev) | Next | Pass (t : Z).
Definition act (s : whole) (i : turn) : whole :=
  match i, x_todo s with
  | Given e, [] => feed e s
  | Next, e :: r => feed e (Whole (x_m s) (x_wait s) r)
  | Pass t, e :: _ => if (t <=? ev_time e)%Z then feed (mkKev 0 false t) s else s
  | _, _ => s
  end.
Definition start : whole := Whole (begin c) None [].
Definition turns (l : list turn) : whole := fold_left act l start.
Definition given (l : list turn) : list kev := flat_map (fun i => match i with Given e => [e] | _ => [] end) l.

(* everything but chords, and toggle together with swap *)
Definition general : Prop :=
  chordless c /\ (forall i code, general_action c (ly_keymap (the c i) code)) /\ (forall n, general_action c (action n)).
End Wait.
