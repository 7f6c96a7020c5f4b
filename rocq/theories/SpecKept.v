(* Specification vocabulary for C07: what happens to a held key while other keys
   are used. *)
From Verif Require Import Base Keys Types Kbd Config SpecHist.

(* an event about another key *)
Definition about_others (code : N) (e : kev) : Prop := ev_code e <> code.

(* everything that can happen between a press and the release of the key: any
   batches of events of other keys (and timer ticks), and live rebinds.  G holds
   of the configuration throughout. *)
Inductive meanwhile (G : config -> Prop) (code : N) : kbd -> kbd -> Prop :=
| mw_refl k : meanwhile G code k k
| mw_events k fuel evs k1 t k2 :
    Forall (about_others code) evs -> kbd_process_events fuel k evs = Ok (k1, t) ->
    meanwhile G code k1 k2 -> meanwhile G code k k2
| mw_eval k exp k1 ok k2 :
    kbd_eval k exp = Ok (k1, ok) -> G (k_cfg k1) ->
    meanwhile G code k1 k2 -> meanwhile G code k k2.

(* no swap(...) anywhere in the configuration *)
Definition no_swap (d : desc) : Prop := forall l m, d <> DSwap l /\ d <> DSwapM l m.
Definition swap_free (c : config) : Prop :=
  (forall i x, no_swap (ly_keymap (nth i (c_layers c) zero_layer) x))
  /\ (forall i ch, In ch (ly_chords (nth i (c_layers c) zero_layer)) -> no_swap (ch_d ch))
  /\ (forall d, In d (c_descs c) -> no_swap d).

(* the decision about the key has fallen and none of its events is queued *)
Definition decided (k : kbd) (code : N) : Prop :=
  p_code (k_pend k) <> code
  /\ (forall e, In e (p_queue (k_pend k)) -> ev_code e <> code)
  /\ (striking k -> forall e, In e (h_queue (k_chord k)) -> ev_code e <> code).

(* the key's release will be handled with binding d of layer dl; [l] is the layer
   the key activated, 0 if none *)
Definition remembered (k : kbd) (code : N) (d : desc) (dl l : nat) : Prop :=
  In (mkCe code d dl l) (k_cache k).

(* actions fixed at the press: all but those decided later, and swap *)
Definition fixed_at_press (d : desc) : Prop :=
  match d with
  | DOverloadT _ _ _ | DOverloadT2 _ _ _ | DTimeout _ _ _ | DOverloadI _ _ _ | DSwap _ | DSwapM _ _ => False
  | _ => True
  end.
(* ... which do not hold a layer *)
Definition holds_no_layer (d : desc) : Prop :=
  match d with
  | DLayer _ | DLayerM _ _ | DOneshot _ | DOneshotM _ _ | DOverload _ _ | DToggle _ | DToggleM _ _ => False
  | _ => True
  end.
