(* Specification vocabulary for what an application shows (C86): the format of compose
   files, the composing of keys, and a US keyboard. *)
From Coq Require Import String.
From Verif Require Import Base Types SpecNotation.
Local Open Scope N_scope.
Local Open Scope list_scope.

(* ---- compose files (the manual page Compose(5)) ------------------------------------- *)
(* the symbols that matter here: the cancel key, and characters *)
Inductive sym := SCancel | SChar (c : N).
Definition sym_eqb (a b : sym) : bool :=
  match a, b with
  | SCancel, SCancel => true
  | SChar x, SChar y => x =? y
  | _, _ => false
  end.
Fixpoint syms_eqb (a b : list sym) : bool :=
  match a, b with
  | [], [] => true
  | x :: a, y :: b => sym_eqb x y && syms_eqb a b
  | _, _ => false
  end.
(* the name of a symbol; letters and digits are named by themselves *)
Definition alphanumeric (c : N) : bool :=
  ((48 <=? c) && (c <=? 57)) || ((65 <=? c) && (c <=? 90)) || ((97 <=? c) && (c <=? 122)).
Definition sym_named (nm : str) : option sym :=
  if str_eqb nm (bs "Cancel") then Some SCancel
  else match nm with
       | [c] => if alphanumeric c then Some (SChar c) else None
       | _ => None
       end.
(* what precedes the first c, and what follows it *)
Fixpoint cut_at (c : N) (s : str) : option (str * str) :=
  match s with
  | [] => None
  | x :: r => if x =? c then Some ([], r)
              else match cut_at c r with Some (a, b) => Some (x :: a, b) | None => None end
  end.
(* a rule: symbols in angle brackets, a colon, a text in quotation marks *)
Fixpoint read_syms (fuel : nat) (s : str) (acc : list sym) : option (list sym * str) :=
  match fuel with
  | O => None
  | S f =>
      match s with
      | 32 :: r => read_syms f r acc
      | 60 :: r => match cut_at 62 r with
                   | Some (nm, r') => match sym_named nm with
                                      | Some y => read_syms f r' (acc ++ [y])
                                      | None => None
                                      end
                   | None => None
                   end
      | 58 :: r => Some (acc, r)
      | _ => None
      end
  end.
Definition read_rule (line : str) : option (list sym * str) :=
  match read_syms (S (List.length line)) line [] with
  | Some (keys, 32 :: 34 :: r) => match cut_at 34 r with Some (t, []) => Some (keys, t) | _ => None end
  | _ => None
  end.
(* the rules of a file: one for each line that reads as a rule *)
Fixpoint rules_fuel (fuel : nat) (file : str) : list (list sym * str) :=
  match fuel with
  | O => []
  | S f =>
      match cut_at 10 file with
      | None => match read_rule file with Some r => [r] | None => [] end
      | Some (line, rest) => match read_rule line with Some r => [r] | None => [] end ++ rules_fuel f rest
      end
  end.
Definition rules (file : str) : list (list sym * str) := rules_fuel (S (List.length file)) file.

(* ---- composing ------------------------------------------------------------------------- *)
Fixpoint leads (w keys : list sym) : bool :=
  match w, keys with
  | [], _ :: _ => true
  | x :: w, y :: keys => sym_eqb x y && leads w keys
  | _, _ => false
  end.
(* One more symbol after those pending: if a rule is complete its text is shown (the last
   rule for the same symbols counts); if one is begun, it is pending; otherwise what was
   pending is dropped, and a symbol with nothing pending shows itself. *)
Definition compose (rs : list (list sym * str)) (pending : list sym) (s : sym) : list sym * str :=
  let w := pending ++ [s] in
  match find (fun r => syms_eqb (fst r) w) (rev rs) with
  | Some r => ([], snd r)
  | None =>
      if existsb (fun r => leads w (fst r)) rs then (w, [])
      else ([], match pending, s with [], SChar c => [c] | _, _ => [] end)
  end.

(* ---- the application ------------------------------------------------------------------- *)
(* the symbol of a key of the US keyboard *)
Fixpoint row_sym (rows : list (N * str * str)) (code : N) (shift : bool) : option sym :=
  match rows with
  | [] => None
  | (first, plain, shifted) :: r =>
      if (first <=? code) && (code <? first + N.of_nat (List.length plain))
      then Some (SChar (nth (N.to_nat (code - first)) (if shift then shifted else plain) 0))
      else row_sym r code shift
  end.
Definition key_sym (code : N) (shift : bool) : option sym :=
  if code =? 223 then Some SCancel
  else if code =? 57 then Some (SChar 32)
  else if code =? 28 then Some (SChar 10)
  else if code =? 15 then Some (SChar 9)
  else row_sym us_rows code shift.
(* pending symbols, whether shift is down, and the text so far *)
Definition appst : Set := (list sym * bool * str)%type.
Definition app_key (rs : list (list sym * str)) (a : appst) (ev : N * bool) : appst :=
  let '(pending, shift, text) := a in
  let '(code, down) := ev in
  if code =? 42 then (pending, down, text)
  else if down then
    match key_sym code shift with
    | Some s => let '(p, t) := compose rs pending s in (p, shift, text ++ t)
    | None => a
    end
  else a.
Definition application (rs : list (list sym * str)) (evs : list (N * bool)) (a : appst) : appst :=
  fold_left (app_key rs) evs a.
(* the key events show this text to an application with nothing pending and shift up, and
   leave it so *)
Definition shows (rs : list (list sym * str)) (evs : list (N * bool)) (text : str) : Prop :=
  forall before, application rs evs ([], false, before) = ([], false, before ++ text).

(* ---- text of macros --------------------------------------------------------------------- *)
(* the key events of what a macro does *)
Definition presses (o : list oev) : list (N * bool) :=
  flat_map (fun e => match e with OKey c p => [(c, p)] | _ => [] end) o.
(* a word of a macro that is text: as [literal], in any characters *)
Definition literal_word (w : str) : Prop :=
  w <> [] /\ ~ key_notation w /\ ~ pause_notation w /\ ~ In 43 w.
