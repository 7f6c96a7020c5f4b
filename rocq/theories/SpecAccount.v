(* Specification vocabulary for the accounting of layer activations (C26, C13, C05). *)
From Verif Require Import Base Keys Types Kbd SpecActions SpecHist.

(* the release of d will take back one activation of layer i *)
Definition holds (d : desc) (i : nat) : bool :=
  match d with
  | DLayer l | DLayerM l _ | DOverload l _ | DOneshot l | DOneshotM l _ => Nat.eqb l i
  | _ => false
  end.
(* number of held keys whose release will deactivate layer i *)
Definition holding (k : kbd) (i : nat) : nat :=
  length (filter (fun e => negb (ce_code e =? 0)%N && holds (ce_d e) i) (k_cache k)).
Definition outstanding (k : kbd) (i : nat) : N :=
  ((if toggled k i then 1 else 0) + oneshots k i + N.of_nat (holding k i))%N.

Definition pending_kind (d : desc) : bool :=
  match d with DOverloadT _ _ _ | DOverloadT2 _ _ _ | DTimeout _ _ _ => true | _ => false end.
Definition is_overloadi (d : desc) : bool := match d with DOverloadI _ _ _ => true | _ => false end.

(* Actions whose activations are accounted for.  T gives the nested actions by
   number, K the layouts by number.  Excluded: swap; overload of an action decided
   later or chosen by overloadi; overloadi of overloadi.  (setlayout names layouts
   only: the parser sees to that, C32.) *)
Definition tame_desc (T : nat -> desc) (K : nat -> bool) (d : desc) : Prop :=
  match d with
  | DSwap _ | DSwapM _ _ => False
  | DOverload _ a => pending_kind (T a) = false /\ is_overloadi (T a) = false
  | DOverloadI a b _ => is_overloadi (T a) = false /\ is_overloadi (T b) = false
  | DLayout l => K l = true
  | _ => True
  end.
(* all actions of the configuration are of that kind *)
Record tame (T : nat -> desc) (K : nat -> bool) (c : config) : Prop := {
  tm_nested : forall a, a < length (c_descs c) -> nth a (c_descs c) DNone = T a;
  tm_layouts : forall i, layout c i <-> K i = true;
  tm_main : K 0 = true;
  tm_keys : forall i code, tame_desc T K (ly_keymap (nth i (c_layers c) zero_layer) code);
  tm_chords : forall i ch, In ch (ly_chords (nth i (c_layers c) zero_layer)) -> tame_desc T K (ch_d ch);
  tm_descs : forall d, In d (c_descs c) -> tame_desc T K d }.

(* Configurations that use no chords, no actions decided later, no macros, no
   oneshot timeout and no swap (C05). *)
Definition calm_desc (K : nat -> bool) (d : desc) : Prop :=
  match d with
  | DSwap _ | DSwapM _ _ | DOverloadT _ _ _ | DOverloadT2 _ _ _ | DTimeout _ _ _ | DMacro _ | DMacro2 _ _ _ => False
  | DLayer l | DLayerM l _ | DOneshot l | DOneshotM l _ | DToggle l | DToggleM l _ | DOverload l _ => K l = false
  | _ => True
  end.
Record calm (T : nat -> desc) (K : nat -> bool) (c : config) : Prop := {
  cm_tame : tame T K c;
  cm_keys : forall i code, calm_desc K (ly_keymap (nth i (c_layers c) zero_layer) code);
  cm_descs : forall d, In d (c_descs c) -> calm_desc K d;
  cm_chords : forall i, ly_chords (nth i (c_layers c) zero_layer) = [];
  cm_oneshot : c_oneshot_timeout c = 0%Z }.
(* the states passed through while the events evs are processed one by one, with
   timer ticks in between *)
Inductive along (fuel : nat) : kbd -> list kev -> kbd -> Prop :=
| along_here k evs : along fuel k evs k
| along_tick k time k1 t evs k' :
    process_event fuel k 0%N false time = Ok (k1, t) -> along fuel k1 evs k' -> along fuel k evs k'
| along_event k e k1 t evs k' :
    process_event fuel k (ev_code e) (ev_pressed e) (ev_time e) = Ok (k1, t) -> along fuel k1 evs k' ->
    along fuel k (e :: evs) k'.
