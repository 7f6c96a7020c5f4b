(* Specification for C77: the machine of SpecWait.v with chords.  Keys that may become a chord
   are held back; if they do become one, the chord begins in their stead, otherwise they are
   struck again. *)
From Verif Require Import Base Keys Types MacroExec Kbd Config SpecLookup SpecDefer Outside SpecRef SpecWait.
Local Open Scope list_scope.

(* a chord that is held: the keys of it still down, what it does, the layer it is from *)
Record place := Place { q_keys : list N; q_do : desc; q_layer : nat }.
(* an attempt at a chord: what was struck, the chord found so far with its layer, when the last
   key was struck *)
Record attempt := Attempt { a_queue : list kev; a_found : option (chord * nat); a_last : Z }.
Inductive trying :=
| Calm                    (* no attempt *)
| Replaying               (* an attempt is over, its keys are struck again *)
| Open (a : attempt)      (* more keys may follow *)
| Kept (a : attempt).     (* a chord was found; it must be kept down for a while *)
(* what is still to be done: events that follow at once, events struck again, and the end of
   an attempt *)
Inductive item := Now (e : kev) | Again (e : kev) | Over.
Record full := Full { g_m : machine; g_wait : option waiting; g_try : trying; g_places : list place; g_todo : list item }.

Definition chord_code (i : nat) : N := (197 + N.of_nat i)%N.
Definition free : place := Place [] DNone 0.

Section Full.
Variable c : config.

(* ---- which chord was struck -------------------------------------------------------------- *)
Definition pressed_of (q : list kev) : list N := map ev_code (filter ev_pressed q).
Definition of_chord (q : list kev) (ch : chord) : bool :=
  match pressed_of q with [] => false | l => forallb (fun x => existsb (N.eqb x) (ch_keys ch)) l end.
Definition complete (q : list kev) (ch : chord) : bool := of_chord q ch && Nat.eqb (length (pressed_of q)) (length (ch_keys ch)).
Definition begun (q : list kev) (ch : chord) : bool := of_chord q ch && negb (Nat.eqb (length (pressed_of q)) (length (ch_keys ch))).
(* the last complete one of the layer on that was switched on last *)
Definition best (m : machine) (q : list kev) : option (chord * nat) :=
  match find (fun i => lit m i && existsb (complete q) (ly_chords (the c i))) (order m) with
  | Some i => option_map (fun ch => (ch, i)) (find (complete q) (rev (ly_chords (the c i))))
  | None => None
  end.
Definition more (m : machine) (q : list kev) : bool :=
  existsb (fun i => lit m i && existsb (begun q) (ly_chords (the c i))) (layers c).

(* ---- an event that belongs to no chord ---------------------------------------------------- *)
Definition pick (ps : list place) (m : machine) (code : N) : desc * nat :=
  if (197 <=? code)%N && (code <=? 199)%N then
    let p := nth (N.to_nat (code - 197)) ps free in (q_do p, q_layer p)
  else choose c m code.
Definition begins_by (pk : machine -> N -> desc * nat) (m : machine) (e : kev) : option waiting :=
  let m := again c (ev_code e) (ev_time e) (expire c (ev_time e) m) in
  if (ev_code e =? 0)%N then None
  else
    match ev_pressed e, holding (ev_code e) m with
    | true, None =>
        if Nat.ltb (length (m_held m)) 16 then
          let '(d, dl) := pk m (ev_code e) in waits c (ev_code e) (settle c d (ev_time e) m) dl (ev_time e)
        else None
    | _, _ => None
    end.
Definition hand (e : kev) (s : full) : full :=
  let next := step_by c (pick (g_places s)) (g_m s) e in
  match g_wait s with
  | None => Full next (begins_by (pick (g_places s)) (g_m s) e) (g_try s) (g_places s) (g_todo s)
  | Some w =>
      if passes w e then Full next (Some w) (g_try s) (g_places s) (g_todo s)
      else
        match verdict w e with
        | None | Some DNone => Full (g_m s) (Some (extend w e)) (g_try s) (g_places s) (g_todo s)
        | Some d =>
            let m := forget (w_code w) (g_m s) in
            let d := settle c d (ev_time e) m in
            Full (begin_key c (w_code w) d (w_layer w) (ev_time e) m) (waits c (w_code w) d (w_layer w) (ev_time e))
              (g_try s) (g_places s) (map Again (w_queue (extend w e)) ++ g_todo s)
        end
  end.

(* ---- attempts ------------------------------------------------------------------------------ *)
Definition trying_now (x : trying) (s : full) : full := Full (g_m s) (g_wait s) x (g_places s) (g_todo s).
Fixpoint place_where (f : place -> bool) (ps : list place) : option nat :=
  match ps with [] => None | p :: r => if f p then Some 0 else option_map S (place_where f r) end.
Definition vacant (p : place) : bool := match q_keys p with [] => true | _ => false end.
(* the attempt is over: the chord found begins, if any, and the other keys are struck again *)
Definition conclude (a : attempt) (s : full) : full :=
  match a_found a with
  | None => Full (g_m s) (g_wait s) Replaying (g_places s) (map Again (a_queue a) ++ Over :: g_todo s)
  | Some (ch, dl) =>
      match place_where vacant (g_places s) with
      | Some i =>
          Full (g_m s) (g_wait s) Replaying (upd i (Place (ch_keys ch) (ch_d ch) dl) (g_places s))
            (Now (mkKev (chord_code i) true (a_last a)) :: map Again (skipn (length (ch_keys ch)) (a_queue a)) ++ Over :: g_todo s)
      | None => s          (* keyd aborts *)
      end
  end.
Definition give_up (q : list kev) (s : full) : full := conclude (Attempt q None 0) s.
(* after the keys q, the last at time t; [old] was found before *)
Definition consider (q : list kev) (old : option (chord * nat)) (t : Z) (s : full) : option full :=
  let found := match best (g_m s) q with Some b => Some b | None => old end in
  match best (g_m s) q, more (g_m s) q with
  | None, false => None
  | Some _, false =>
      Some (if (c_chord_hold c =? 0)%Z then conclude (Attempt q found t) s else trying_now (Kept (Attempt q found t)) s)
  | _, true => Some (trying_now (Open (Attempt q found t)) s)
  end.

Definition holds (code : N) (p : place) : bool := existsb (N.eqb code) (q_keys p).
Definition feed_all (e : kev) (s : full) : full :=
  let code := ev_code e in
  match (if negb (code =? 0)%N && negb (ev_pressed e) then place_where (holds code) (g_places s) else None) with
  | Some i =>
      (* a key of a chord goes up; with the last one the chord does *)
      let p := nth i (g_places s) free in
      let left := filter (fun x => negb (x =? code)%N) (q_keys p) in
      Full (g_m s) (g_wait s) (g_try s) (upd i (Place left (q_do p) (q_layer p)) (g_places s))
        (match left with [] => Now (mkKev (chord_code i) false (ev_time e)) :: g_todo s | _ => g_todo s end)
  | None =>
      match g_try s with
      | Replaying => hand e s
      | Calm =>
          match (if (code =? 0)%N then None else consider [e] None (ev_time e) s) with
          | Some s' => s'
          | None => hand e s
          end
      | Open a =>
          if (code =? 0)%N then
            if (c_chord_interkey c <=? ev_time e - a_last a)%Z then
              match a_found a with
              | Some _ => if (0 <? c_chord_hold c - c_chord_interkey c)%Z then trying_now (Kept a) s else conclude a s
              | None => give_up (a_queue a) s
              end
            else hand e s
          else if ev_pressed e then
            match consider (a_queue a ++ [e]) (a_found a) (ev_time e) s with
            | Some s' => s'
            | None => give_up (a_queue a ++ [e]) s
            end
          else give_up (a_queue a ++ [e]) s
      | Kept a =>
          if (code =? 0)%N then
            if (c_chord_hold c <=? ev_time e - a_last a)%Z then conclude a s else hand e s
          else
            let more := trying_now (Kept (Attempt (a_queue a ++ [e]) (a_found a) (a_last a))) s in
            match ev_pressed e, a_found a with
            | false, Some (ch, _) => if existsb (N.eqb code) (ch_keys ch) then give_up (a_queue a ++ [e]) s else more
            | _, _ => more
            end
      end
  end.

(* ---- turns --------------------------------------------------------------------------------- *)
Definition pop (r : list item) (s : full) : full := Full (g_m s) (g_wait s) (g_try s) (g_places s) r.
Definition act_all (s : full) (i : turn) : full :=
  match i, g_todo s with
  | Given e, [] => feed_all e s
  | Next, Now e :: r | Next, Again e :: r => feed_all e (pop r s)
  | Next, Over :: r => trying_now Calm (pop r s)
  | Pass t, Again e :: _ => if (t <=? ev_time e)%Z then feed_all (mkKev 0 false t) s else s
  | _, _ => s
  end.
Definition start_all : full := Full (begin c) None Calm [free; free; free] [].
Definition turns_all (l : list turn) : full := fold_left act_all l start_all.

(* everything, but toggle only without swap; a chord is of keys *)
Definition entire : Prop :=
  (forall i code, general_action c (ly_keymap (the c i) code)) /\ (forall n, general_action c (action c n))
  /\ (forall i ch, In ch (ly_chords (the c i)) -> general_action c (ch_d ch) /\ forall x, In x (ch_keys ch) -> x <> 0%N).
End Full.

(* ---- which configuration files are meant -------------------------------------------- *)
(* actions that appear: bound to a key or to a chord, or part of another action *)
Definition appears (c : config) (d : desc) : Prop :=
  (exists i code, ly_keymap (the c i) code = d) \/ In d (c_descs c) \/ exists i ch, In ch (ly_chords (the c i)) /\ ch_d ch = d.
Definition is_toggle (d : desc) : Prop := match d with DToggle _ | DToggleM _ _ => True | _ => False end.
Definition is_swap (d : desc) : Prop := match d with DSwap _ | DSwapM _ _ => True | _ => False end.
Definition is_idle (d : desc) : Prop := match d with DOverloadI _ _ _ => True | _ => False end.
Definition is_later (d : desc) : Prop := match d with DOverloadT _ _ _ | DOverloadT2 _ _ _ | DTimeout _ _ _ => True | _ => False end.
(* toggle and swap are not mixed; the tap of an overload is decided at once; an idle overload
   does not lead to another one *)
Definition unmixed (c : config) : Prop :=
  (forall d d', appears c d -> appears c d' -> is_toggle d -> is_swap d' -> False)
  /\ (forall l a, appears c (DOverload l a) -> ~ is_later (action c a) /\ ~ is_idle (action c a))
  /\ (forall a b t, appears c (DOverloadI a b t) -> ~ is_idle (action c a) /\ ~ is_idle (action c b)).
