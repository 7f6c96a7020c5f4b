(* Specification of the text syntax: INI files (C40) and action calls (C41). *)
From Coq Require Import String.
From Verif Require Import Base.
Local Open Scope list_scope.
Local Open Scope N_scope.
Local Notation length := List.length.

(* ---- C41: action calls ------------------------------------------------------------ *)
(* A balanced argument text; [inner] is true inside parentheses, where commas do not
   separate.  A backslash takes away the meaning of the next character. *)
Inductive arg : bool -> str -> Prop :=
| arg_nil inner : arg inner []
| arg_char inner c s : c <> 40 -> c <> 41 -> c <> 92 -> (inner = false -> c <> 44) ->
    arg inner s -> arg inner (c :: s)
| arg_escape inner c s : arg inner s -> arg inner (92 :: c :: s)
| arg_call inner u s : arg true u -> arg inner s -> arg inner (40 :: u ++ 41 :: s).

(* arguments with the number of blanks before each *)
Fixpoint listed (items : list (nat * str)) : str :=
  match items with
  | [] => []
  | [(n, a)] => repeat 32 n ++ a
  | (n, a) :: r => repeat 32 n ++ a ++ 44 :: listed r
  end.
Definition call (name : str) (items : list (nat * str)) : str := name ++ 40 :: listed items ++ [41].
(* an argument: balanced and not starting with a blank (these are skipped) *)
Definition item (p : nat * str) : Prop := arg false (snd p) /\ (forall r, snd p <> 32 :: r).
Definition given (items : list (nat * str)) : list str :=
  filter (fun a => match a with [] => false | _ => true end) (map snd items).

(* ---- C40: INI text ----------------------------------------------------------------- *)
Definition white (c : N) : Prop := c = 32 \/ 9 <= c <= 13.
Definition blank (c : N) : Prop := c = 32 \/ c = 9.

(* the lines of a text *)
Fixpoint join_lines (ls : list str) : str :=
  match ls with
  | [] => []
  | [l] => l
  | l :: r => l ++ 10 :: join_lines r
  end.
Definition lines_of (s : str) (ls : list str) : Prop :=
  ls <> [] /\ s = join_lines ls /\ Forall (fun l => ~ In 10 l) ls.

(* [t] without white space at either end *)
Definition tight (t : str) : Prop :=
  (forall c r, t = c :: r -> ~ white c) /\ (forall c r, t = r ++ [c] -> ~ white c).
Definition padded (l t : str) : Prop :=
  exists a b, l = a ++ t ++ b /\ Forall white a /\ Forall white b.

(* the meaningful lines *)
Inductive meaning : list str -> list str -> Prop :=
| meaning_nil : meaning [] []
| meaning_blank l ls ts : Forall white l -> meaning ls ts -> meaning (l :: ls) ts
| meaning_comment l ls ts r : padded l (35 :: r) -> meaning ls ts -> meaning (l :: ls) ts
| meaning_line l t ls ts : padded l t -> tight t -> t <> [] -> (forall r, t <> 35 :: r) ->
    meaning ls ts -> meaning (l :: ls) (t :: ts).

(* key = value, or a line without equals sign; an equals sign in first place belongs to
   the key *)
Inductive entry : str -> str * option str -> Prop :=
| entry_value k b1 b2 v : (k = [] -> b1 <> []) -> (forall c r, k = c :: r -> ~ In 61 r) ->
    (forall c r, k = r ++ [c] -> ~ blank c) ->
    Forall blank b1 -> Forall blank b2 -> (forall c r, v = c :: r -> ~ blank c) ->
    entry (k ++ b1 ++ 61 :: b2 ++ v) (k, Some v)
| entry_word k : (forall c r, k = c :: r -> ~ In 61 r) -> entry k (k, None).

Definition header (n : str) : str := 91 :: n ++ [93].
Inductive file : list str -> list (str * list (str * option str)) -> Prop :=
| file_nil : file [] []
| file_section n es ts secs r :
    Forall2 (fun l e => entry l e /\ (forall n', l <> header n')) ts es -> file r secs ->
    file (header n :: ts ++ r) ((n, es) :: secs).

(* ---- C39: device ids --------------------------------------------------------------- *)
Inductive rule := Any | Only (mouse keyboard : bool) (id : str) | Except (id : str).
Definition starts (p s : str) : Prop := exists r, s = p ++ r.
Definition short (s : str) : str := firstn 63 s.
(* the meaning of a line of the ids section; None: ignored as too long *)
Inductive rule_of : str -> option rule -> Prop :=
| rule_any : rule_of [42] (Some Any)                                        (* * *)
| rule_mouse x : rule_of (109 :: 58 :: x) (Some (Only true false (short x)))  (* m:x *)
| rule_keyboard x : rule_of (107 :: 58 :: x) (Some (Only false true (short x))) (* k:x *)
| rule_except x : rule_of (45 :: x) (Some (Except (short x)))               (* -x *)
| rule_both x : x <> [42] -> ~ starts [109; 58] x -> ~ starts [107; 58] x -> ~ starts [45] x ->
    (length x < 63)%nat -> rule_of x (Some (Only true true x))
| rule_long x : ~ starts [109; 58] x -> ~ starts [107; 58] x -> ~ starts [45] x ->
    (63 <= length x)%nat -> rule_of x None.

(* a device: its id and what it can do *)
Record dev := mkDev { dv_id : str; dv_mouse : bool; dv_keyboard : bool }.
Definition applies (r : rule) (d : dev) : bool -> Prop := fun yes =>
  match r with
  | Any => False
  | Only m k x => starts x (dv_id d) /\ (m && dv_mouse d || k && dv_keyboard d = true) /\ yes = true
  | Except x => starts x (dv_id d) /\ yes = false
  end.
(* the first applicable rule decides *)
Inductive listed_for (d : dev) : list rule -> bool -> Prop :=
| listed_here r rs yes : applies r d yes -> listed_for d (r :: rs) yes
| listed_later r rs yes : (forall b, ~ applies r d b) -> listed_for d rs yes -> listed_for d (r :: rs) yes.
Definition explicit (rs : list rule) (d : dev) : Prop := listed_for d rs true.
Definition by_wildcard (rs : list rule) (d : dev) : Prop := In Any rs /\ forall b, ~ listed_for d rs b.
Definition mouse_only (d : dev) : Prop := dv_mouse d = true /\ dv_keyboard d = false.

(* the first element with a property *)
Inductive first {A} (P : A -> Prop) : list A -> nat -> Prop :=
| first_here a l : P a -> first P (a :: l) 0
| first_later a l i : ~ P a -> first P l i -> first P (a :: l) (S i).
(* the configuration chosen for a device among configurations given by their rules *)
Definition chosen (cs : list (list rule)) (d : dev) (o : option nat) : Prop :=
  match o with
  | Some i => first (fun rs => explicit rs d) cs i
              \/ Forall (fun rs => ~ explicit rs d) cs /\ first (fun rs => by_wildcard rs d) cs i /\ ~ mouse_only d
  | None => Forall (fun rs => ~ explicit rs d) cs
            /\ (Forall (fun rs => ~ by_wildcard rs d) cs \/ mouse_only d)
  end.

(* the rules of a list of lines *)
Inductive rules : list str -> list rule -> Prop :=
| rules_nil : rules [] []
| rules_cons l r ls rs : rule_of l (Some r) -> rules ls rs -> rules (l :: ls) (r :: rs)
| rules_skip l ls rs : rule_of l None -> rules ls rs -> rules (l :: ls) rs.
(* the lines of the ids sections *)
Definition id_text (secs : list (str * list (str * option str))) : list str :=
  flat_map (fun s => if str_eqb (fst s) (bs "ids") then map fst (snd s) else []) secs.

(* the sections of a text *)
Definition sections_of (text : str) (secs : list (str * list (str * option str))) : Prop :=
  exists ls ts, lines_of text ls /\ meaning ls ts /\ file ts secs.

(* ---- C33: texts without the known dangers ------------------------------------------- *)
Definition special (n : str) : Prop := n = bs "ids" \/ n = bs "aliases" \/ n = bs "global".
Definition occurrences (c : N) (s : str) : nat := count_occ N.eq_dec s c.
Definition seven_bit (s : str) : Prop := Forall (fun c => c < 128) s.
Definition safe_binding (n : str) (e : str * option str) : Prop :=
  match e with
  | (_, None) => True
  | (k, Some v) => seven_bit n /\ seven_bit k /\ seven_bit v
      /\ (occurrences 44 n + occurrences 44 k + occurrences 44 v <= 4)%nat
  end.
Definition safe_section (s : str * list (str * option str)) : Prop :=
  N.of_nat (length (fst s)) < 256 /\ N.of_nat (length (snd s)) <= 1024
  /\ (fst s = bs "aliases" \/ fst s = bs "global" -> Forall (fun e => snd e <> None) (snd s))
  /\ (~ special (fst s) ->
      (exists x, In x (fst s) /\ x <> 58) /\ (occurrences 43 (fst s) <= 7)%nat
      /\ Forall (safe_binding (fst s)) (snd s)).
Definition safe_text (text : str) : Prop :=
  exists secs, sections_of text secs /\ (length secs <= 32)%nat /\ (length (id_text secs) <= 64)%nat
    /\ Forall safe_section secs.
