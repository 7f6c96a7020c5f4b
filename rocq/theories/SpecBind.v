(* Specification of bindings given as expressions "[layer.]key = action" (C31). *)
From Coq Require Import String.
From Verif Require Import Base KeyTable Types SpecNotation SpecText.
Local Open Scope N_scope.

(* the layer an expression names and the rest of the expression *)
Inductive target : str -> str -> str -> Prop :=
| target_layer l s : l <> [] -> ~ In 46 l -> ~ In 40 l -> target (l ++ 46 :: s) l s
| target_main e : (forall l s, e = l ++ 46 :: s -> ~ In 46 l -> l = [] \/ In 40 l) -> target e (bs "main") e.
(* the first layer of the name *)
Definition layer_of (c : config) (n : str) (i : nat) : Prop :=
  exists l, nth_error (c_layers c) i = Some l /\ ly_name l = n
    /\ forall j l', (j < i)%nat -> nth_error (c_layers c) j = Some l' -> ly_name l' <> n.
(* the keys a name stands for: those with this alias; if there are none, the key of that
   name in the table *)
Definition table_name (n : str) (code : N) : Prop :=
  name_of code = Some n \/ name_of code <> None /\ alt_name_of code = Some n.
Definition aliased (c : config) (n : str) (code : N) : Prop := code < 256 /\ c_aliases c code = n.
Definition stands_for (c : config) (n : str) (code : N) : Prop :=
  aliased c n code \/ (forall x, ~ aliased c n x) /\ table_name n code.
(* the tables of nested actions, macros and commands only get new entries at the end *)
Definition tables_extended (c c' : config) : Prop :=
  (exists x, c_descs c' = c_descs c ++ x) /\ (exists x, c_macros c' = c_macros c ++ x)
  /\ (exists x, c_cmds c' = c_cmds c ++ x).
(* everything but the layers and these tables is as before *)
Definition rest_same (c c' : config) : Prop :=
  exists ls d m k, c' = set_c_layers ls (set_c_descs d (set_c_macros m (set_c_cmds k c))).
(* layers other than i are as before, layer i only differs in its keys and chords *)
Definition only_layer (i : nat) (c c' : config) : Prop :=
  List.length (c_layers c') = List.length (c_layers c)
  /\ (forall j, j <> i -> nth_error (c_layers c') j = nth_error (c_layers c) j)
  /\ forall l, nth_error (c_layers c) i = Some l ->
       exists f ch, nth_error (c_layers c') i = Some (set_ly_keymap f (set_ly_chords ch l)).
Definition keys_of (c : config) (i : nat) (code : N) : option desc :=
  option_map (fun l => ly_keymap l code) (nth_error (c_layers c) i).
Definition chords_of (c : config) (i : nat) : option (list chord) :=
  option_map ly_chords (nth_error (c_layers c) i).
(* one chord gets a new action, or a chord is added *)
Inductive chord_change (keys : list N) (d : desc) : list chord -> list chord -> Prop :=
| change_action a c b : incl keys (ch_keys c) -> Forall (fun x => ~ incl keys (ch_keys x)) a ->
    chord_change keys d (a ++ c :: b) (a ++ mkChord (ch_keys c) d :: b)
| change_new a : Forall (fun x => ~ incl keys (ch_keys x)) a ->
    chord_change keys d a (a ++ [mkChord keys d]).
(* the names written between plus signs *)
Inductive pluses : str -> list str -> Prop :=
| pluses_nil : pluses [] []
| pluses_sep s ns : pluses s ns -> pluses (43 :: s) ns
| pluses_last n : n <> [] -> ~ In 43 n -> pluses n [n]
| pluses_cons n s ns : n <> [] -> ~ In 43 n -> pluses s ns -> pluses (n ++ 43 :: s) (n :: ns).
