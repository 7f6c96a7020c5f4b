(* Specification vocabulary: well formed configurations (C04, C10, C32). *)
From Verif Require Import Base Keys Types.

(* a layer that actions such as layer() may name: not main, not a layout *)
Definition layer_ref (c : config) (l : nat) : Prop :=
  l < length (c_layers c) /\ l <> 0 /\ ly_type (nth l (c_layers c) zero_layer) <> LLayout.
(* a layout that setlayout() may name *)
Definition layout_ref (c : config) (l : nat) : Prop :=
  l < length (c_layers c) /\ (l = 0 \/ ly_type (nth l (c_layers c) zero_layer) = LLayout).

(* Every reference in the action exists: nested actions among the first [nd],
   macros among the first [nm], commands among the first [nc].  Times are uint16_t,
   sensitivities int16_t (config.h:56-69). *)
Definition i16 (t : Z) : Prop := (-32768 <= t < 32768)%Z.
Definition u16 (t : Z) : Prop := (0 <= t < 65536)%Z.
Definition ok_desc (c : config) (nd nm nc : N) (d : desc) : Prop :=
  let lay l := layer_ref c l in
  let sub a := (N.of_nat a < nd)%N in
  let mac m := (N.of_nat m < nm)%N in
  let com x := (N.of_nat x < nc)%N in
  match d with
  | DNone | DKey _ _ | DClear => True
  | DScroll s | DScrollToggle s => i16 s
  | DOneshot l | DSwap l | DLayer l | DToggle l => lay l
  | DOneshotM l m | DLayerM l m | DSwapM l m | DToggleM l m => lay l /\ mac m
  | DLayout l => layout_ref c l
  | DClearM m | DMacro m => mac m
  | DMacro2 t r m => mac m /\ u16 t /\ u16 r
  | DOverload l a => lay l /\ sub a
  | DOverloadT l a t | DOverloadT2 l a t => lay l /\ sub a /\ u16 t
  | DOverloadI a b t | DTimeout a t b => sub a /\ sub b /\ u16 t
  | DCommand x => com x
  end.

Record wf_layer (c : config) (l : layer) : Prop := {
  wl_keymap : forall code,
    ok_desc c (N.of_nat (length (c_descs c))) (N.of_nat (length (c_macros c)))
            (N.of_nat (length (c_cmds c))) (ly_keymap l code);
  wl_chords : length (ly_chords l) <= 64;
  wl_chord : forall ch, In ch (ly_chords l) ->
    length (ch_keys ch) <= 8
    /\ ok_desc c (N.of_nat (length (c_descs c))) (N.of_nat (length (c_macros c)))
               (N.of_nat (length (c_cmds c))) (ch_d ch);
  wl_const : length (ly_const l) <= 8
             /\ forall j, In j (ly_const l) -> j < length (c_layers c);
  (* keymap[256]: nothing beyond *)
  wl_codes : forall code, (256 <= code)%N -> ly_keymap l code = DNone;
  (* a chord is of keys *)
  wl_keys : forall ch x, In ch (ly_chords l) -> In x (ch_keys ch) -> (0 < x < 256)%N }.

Record wf_config (c : config) : Prop := {
  wf_some : 1 <= length (c_layers c);
  wf_layers_max : length (c_layers c) <= 32;
  wf_main : ly_type (nth 0 (c_layers c) zero_layer) = LLayout;
  wf_layers : forall l, In l (c_layers c) -> wf_layer c l;
  wf_descs_max : (N.of_nat (length (c_descs c)) <= 1024)%N;
  (* a nested action only refers to earlier ones: no cycles; none is missing *)
  wf_descs : forall i, i < length (c_descs c) ->
    ok_desc c (N.of_nat i) (N.of_nat (length (c_macros c))) (N.of_nat (length (c_cmds c)))
            (nth i (c_descs c) DNone)
    /\ nth i (c_descs c) DNone <> DNone;
  wf_macros_max : (N.of_nat (length (c_macros c)) <= 256)%N;
  wf_cmds_max : length (c_cmds c) <= 64;
  wf_ids_max : length (c_ids c) <= 64 }.
