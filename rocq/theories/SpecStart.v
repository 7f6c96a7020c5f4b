(* Specification vocabulary for C88: who may start a macro that repeats. *)
From Verif Require Import Base Keys Types MacroExec Kbd Config.

(* actions that start a macro when pressed, as far as can be seen without looking deeper *)
Definition starts (d : desc) : bool :=
  match d with DMacro _ | DMacro2 _ _ _ | DOverloadI _ _ _ => true | _ => false end.
(* Actions that may leave a macro repeating when they are pressed and released at once,
   which is what overload() does with its action on a tap; a plain macro() is run
   once instead.  T gives the nested actions. *)
Definition may_start (T : nat -> desc) (d : desc) : bool :=
  match d with DMacro2 _ _ _ => true | DOverloadI a b _ => starts (T a) || starts (T b) | _ => false end.
Definition modest_desc (T : nat -> desc) (d : desc) : Prop :=
  match d with DOverload _ a => may_start T (T a) = false | _ => True end.
Record modest (T : nat -> desc) (c : config) : Prop := {
  md_nested : forall a, a < length (c_descs c) -> nth a (c_descs c) DNone = T a;
  md_keys : forall i code, modest_desc T (ly_keymap (nth i (c_layers c) zero_layer) code);
  md_chords : forall i ch, In ch (ly_chords (nth i (c_layers c) zero_layer)) -> modest_desc T (ch_d ch);
  md_descs : forall d, In d (c_descs c) -> modest_desc T d }.
