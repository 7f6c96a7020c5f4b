(* Specification vocabulary for text and macros sent by a client (C54, C55). *)
From Coq Require Import String.
From Verif Require Import Base Types UnicodeTable SpecNotation Daemon.
Local Open Scope N_scope.
Local Open Scope list_scope.
Local Notation length := List.length.

(* the message holds this text: sz bytes at the start of an array of 4096, no NUL *)
Definition carries (m : imsg) (text : str) : Prop :=
  exists rest, i_data m = text ++ rest /\ i_sz m = N.of_nat (length text)
    /\ N.of_nat (length (i_data m)) = 4096 /\ N.of_nat (length text) < 4096 /\ ~ In 0 text.

(* the place of a code point in the compose table: that of the run it lies in, after all
   the runs before *)
Definition run_sizes (runs : list (N * N)) : N := fold_right (fun r n => snd r + n) 0 runs.
Definition in_table (cp idx : N) : Prop :=
  exists before first n after, unicode_runs = before ++ (first, n) :: after
    /\ first <= cp < first + n /\ idx = run_sizes before + (cp - first).

(* what typing the character sends: its key of the US keyboard, or blank, newline and
   tab, or the compose sequence *)
Definition press_release (c : N) : list vev := [VKey c true; VKey c false].
Inductive char_typed : N -> list vev -> Prop :=
| ct_key c code : us_key c code false -> char_typed c (press_release code)
| ct_shifted c code : us_key c code true -> char_typed c (VKey 42 true :: press_release code ++ [VKey 42 false])
| ct_blank : char_typed 32 (press_release 57)
| ct_newline : char_typed 10 (press_release 28)
| ct_tab : char_typed 9 (press_release 15)
| ct_compose c idx : in_table c idx -> char_typed c (flat_map press_release (compose_keys idx)).
Definition untypable (c : N) : Prop := forall evs, ~ char_typed c evs.
(* the pause after each character *)
Definition paused (t : N) (evs : list vev) : list vev := evs ++ (if t =? 0 then [] else [VSleep t]).

(* whether the key ends up pressed, given whether it was *)
Definition vafter (c : N) (evs : list vev) (before : bool) : bool :=
  fold_left (fun b e => match e with VKey c' p => if c' =? c then p else b | _ => b end) evs before.
(* the key events among them *)
Definition keys_sent (evs : list vev) : list (N * bool) :=
  flat_map (fun e => match e with VKey c p => [(c, p)] | _ => [] end) evs.
(* the daemon differs only in what it has sent *)
Definition only_sent (d d' : dstate) (evs : list vev) : Prop := d' = set_d_out (rev evs ++ d_out d) d.

(* what the virtual keyboard gets for an event of a macro: the four scroll codes scroll
   at the press, every other key goes through *)
Definition wheel : list (N * (Z * Z)) := [(148, (0, -1)%Z); (149, (0, 1)%Z); (202, (-1, 0)%Z); (203, (1, 0)%Z)].
Definition shown (o : oev) : list vev :=
  match o with
  | OKey c p =>
      match find (fun w => fst w =? c) wheel with
      | Some w => if p then [VScroll (fst (snd w)) (snd (snd w))] else []
      | None => [VKey c p]
      end
  | OSleep us => [VSleep us]
  | _ => []
  end.
