(* Specification vocabulary: which binding a pressed key uses (C06), and when
   the engine has nothing undecided. *)
From Verif Require Import Base Keys Types Kbd SpecMods.

Definition layer_of (k : kbd) (i : nat) : layer := nth i (c_layers (k_cfg k)) zero_layer.

(* layer i has the binding d for the key *)
Definition binds (k : kbd) (i : nat) (code : N) (d : desc) : Prop :=
  (i < length (c_layers (k_cfg k)))%nat /\ ly_keymap (layer_of k i) code = d /\ d <> DNone.

Definition is_comp (k : kbd) (i : nat) : Prop := ly_type (layer_of k i) = LComposite.
Definition size (k : kbd) (i : nat) : nat := length (ly_const (layer_of k i)).
Definition act_time (k : kbd) (i : nat) : Z := l_time (k_ls k i).

(* the composite layer i applies: all of its constituents are active *)
Definition applies (k : kbd) (i : nat) : Prop :=
  is_comp k i /\ (0 < size k i)%nat
  /\ forall j, In j (ly_const (layer_of k i)) -> l_active (k_ls k j) <> 0%N.

(* [resolves k code d dl]: pressing the key uses binding d, supplied by layer dl *)
Inductive resolves (k : kbd) (code : N) : desc -> nat -> Prop :=
| by_composite d i :
    applies k i -> binds k i code d ->
    (forall j d', applies k j -> binds k j code d' ->
       (size k j < size k i \/ (size k j = size k i /\ i <= j))%nat) ->
    resolves k code d i
| by_layer d i :
    (forall j d', applies k j -> ~ binds k j code d') ->
    layer_active k i -> binds k i code d ->
    (forall j d', layer_active k j -> binds k j code d' ->
       (act_time k j < act_time k i)%Z \/ (act_time k j = act_time k i /\ (j <= i)%nat)) ->
    resolves k code d i
| by_itself :
    (forall j d', applies k j -> ~ binds k j code d') ->
    (forall j d', layer_active k j -> ~ binds k j code d') ->
    resolves k code (DKey code 0) 0.

(* ---- nothing undecided ------------------------------------------------------ *)
(* no key waits for its tap/hold decision and no chord is being struck *)
Definition idle (k : kbd) : Prop :=
  p_code (k_pend k) = 0%N /\ h_state (k_chord k) = CsInactive.
(* no oneshot expires by [time] and no macro repeats *)
Definition nothing_due (k : kbd) (time : Z) : Prop :=
  (k_oneshot_to k = 0%Z \/ (time < k_oneshot_to k)%Z) /\ k_amacro k = None.
(* the key starts no chord of an active layer, and is held in no active chord *)
Definition unchorded (k : kbd) (code : N) : Prop :=
  (forall i ch, layer_active k i -> In ch (ly_chords (layer_of k i)) -> ~ In code (ch_keys ch))
  /\ (forall ac, In ac (k_achords k) -> ac_active ac = true -> ~ In code (ch_keys (ac_chord ac))).
(* a key code of a physical key: not 0 and not a chord's internal code *)
Definition physical (code : N) : Prop :=
  code <> 0%N /\ ~ (K_CHORD_1 <= code <= K_CHORD_MAX)%N.
(* the key is not held (as far as the engine remembers), and there is room to
   remember it *)
Definition unheld (k : kbd) (code : N) : Prop :=
  forall e, In e (k_cache k) -> ce_code e <> code.
Definition has_room (k : kbd) : Prop := exists e, In e (k_cache k) /\ ce_code e = 0%N.
(* the key is held, with this binding *)
Definition held (k : kbd) (code : N) (d : desc) (dl : nat) : Prop :=
  exists pre e post, k_cache k = pre ++ e :: post
    /\ (forall e', In e' pre -> ce_code e' <> code)
    /\ ce_code e = code /\ ce_d e = d /\ ce_dl e = dl.

(* everything the event-level theorems ask of a key about to be pressed *)
Definition ready (k : kbd) (code : N) (time : Z) : Prop :=
  physical code /\ idle k /\ unchorded k code /\ nothing_due k time /\ unheld k code /\ has_room k.
