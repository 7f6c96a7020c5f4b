(* Specification vocabulary for modifiers (C08, C09). *)
From Verif Require Import Base Keys Types Kbd.
Local Open Scope N_scope.

(* The five modifiers keyd manages, as (bit in a modifier set, key) pairs.
   Written out here rather than taken from the model's table. *)
Inductive is_modifier : N -> N -> Prop :=
| im_alt : is_modifier 1 56        (* A: left alt *)
| im_meta : is_modifier 2 125      (* M: left meta *)
| im_shift : is_modifier 4 42      (* S: left shift *)
| im_ctrl : is_modifier 8 29       (* C: left control *)
| im_altgr : is_modifier 16 100.   (* G: right alt *)

Definition in_set (bit mods : N) : Prop := N.land bit mods <> 0.

(* layer i supplies the binding itself: it is the layer dl, or dl is composite
   and i one of its constituents *)
Definition supplies (c : config) (dl i : nat) : Prop :=
  i = dl \/ (ly_type (nth dl (c_layers c) zero_layer) = LComposite
             /\ In i (ly_const (nth dl (c_layers c) zero_layer))).

Definition layer_active (k : kbd) (i : nat) : Prop :=
  (i < length (c_layers (k_cfg k)))%nat /\ l_active (k_ls k i) <> 0.

Definition layer_mods (k : kbd) (i : nat) : N := ly_mods (nth i (c_layers (k_cfg k)) zero_layer).

(* The modifier is wanted down while a key sequence with modifiers [mods],
   bound in layer dl, is pressed. *)
Definition wanted (k : kbd) (dl : nat) (mods bit : N) : Prop :=
  in_set bit mods
  \/ exists i, layer_active k i /\ ~ supplies (k_cfg k) dl i /\ in_set bit (layer_mods k i).

(* The host's view of a key: pressed and not released since.  The trace is
   newest first. *)
Fixpoint host_down (out : list oev) (code : N) : bool :=
  match out with
  | [] => false
  | OKey c p :: r => if c =? code then p else host_down r code
  | _ :: r => host_down r code
  end.

(* No lone tap of alt, altgr or meta: whenever one of them is released, either
   some other key was pressed since its press, or control is down.  [last] is
   the key pressed last before the events, [ctrl] whether control was down;
   events oldest first. *)
Fixpoint guarded (last : N) (ctrl : bool) (evs : list oev) : Prop :=
  match evs with
  | [] => True
  | OKey c true :: r => guarded c (if c =? 29 then true else ctrl) r
  | OKey c false :: r =>
      ((c = 56 \/ c = 100 \/ c = 125) -> last <> c \/ ctrl = true)
      /\ guarded last (if c =? 29 then false else ctrl) r
  | _ :: r => guarded last ctrl r
  end.
