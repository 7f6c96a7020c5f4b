(* Specification of the notations of macros (C58) and actions (C59): what a text stands
   for, without reference to the parser. *)
From Coq Require Import String.
From Verif Require Import Base KeyTable Types SpecNotation SpecText SpecBind SpecClient.
Local Open Scope N_scope.
Local Open Scope list_scope.
Local Notation length := List.length.

(* valid UTF-8 without NUL *)
Definition utf8_text (s : str) : Prop := exists cps, Forall scalar cps /\ s = flat_map utf8 cps.

(* the non-empty pieces between separators *)
Inductive parts (d : N) : str -> list str -> Prop :=
| parts_nil : parts d [] []
| parts_sep s ns : parts d s ns -> parts d (d :: s) ns
| parts_last n : n <> [] -> ~ In d n -> parts d n [n]
| parts_cons n s ns : n <> [] -> ~ In d n -> parts d s ns -> parts d (n ++ d :: s) (n :: ns).

(* ---- numbers ------------------------------------------------------------------------- *)
Definition digit (c : N) : Prop := 48 <= c <= 57.
Definition value (ds : str) : Z := fold_left (fun a c => a * 10 + Z.of_N (c - 48))%Z ds 0%Z.
Definition signed (bits z : Z) : Z := ((z + 2 ^ (bits - 1)) mod 2 ^ bits - 2 ^ (bits - 1))%Z.
(* as a long, then as an int *)
Definition int_of (v : Z) : Z := signed 32 (Z.max (- 2 ^ 63) (Z.min (2 ^ 63 - 1) v)).
(* white space, a sign, digits; what follows is ignored *)
Inductive number : str -> Z -> Prop :=
| number_plain ws ds rest : Forall white ws -> Forall digit ds -> (forall c r, rest = c :: r -> ~ digit c) ->
    (ds = [] -> forall c r, rest = c :: r -> ~ white c /\ c <> 43 /\ c <> 45) ->
    number (ws ++ ds ++ rest) (int_of (value ds))
| number_signed ws s ds rest : Forall white ws -> s = 43 \/ s = 45 -> Forall digit ds -> (forall c r, rest = c :: r -> ~ digit c) ->
    number (ws ++ s :: ds ++ rest) (int_of (if s =? 45 then - value ds else value ds)).

(* ---- keys ---------------------------------------------------------------------------- *)
(* modifiers and a name; letters alone name the left control key *)
Inductive key_text : str -> N -> N -> Prop :=
| kt_name ls nm c m : nm <> [] -> name_of c = Some nm \/ alt_name_of c = Some nm -> denotes ls m -> key_text (dashed ls ++ nm) c m
| kt_shifted ls nm c m : nm <> [] -> shifted_name_of c = Some nm -> denotes (ls ++ [83]) m -> key_text (dashed ls ++ nm) c m
| kt_bare ls m : ls <> [] -> denotes ls m -> key_text (dashed ls) 29 m.
Definition is_key (s : str) : Prop := exists c m, key_text s c m.

(* ---- macros -------------------------------------------------------------------------- *)
Definition pause_text (w : str) : Prop :=
  exists ds r, ds <> [] /\ Forall digit ds /\ w = ds ++ bs "ms" ++ r /\ (r = [] \/ exists r', r = 10 :: r').
Definition pause_ms (w : str) (t : N) : Prop := exists z, number w z /\ t = Z.to_N (z mod 65536)%Z.
(* a character of literal text; characters that cannot be typed are skipped, as is the
   first one of the compose table *)
Inductive char_adds : N -> list element -> Prop :=
| ca_key c code (shift : bool) : us_key c code shift -> char_adds c [EKey (if shift then 4 else 0) code]
| ca_compose c idx : in_table c idx -> 0 < idx -> char_adds c [EChar idx]
| ca_skipped c : (forall code shift, ~ us_key c code shift) -> (forall idx, in_table c idx -> idx = 0) -> char_adds c [].
(* a member of a group: the modifiers written with a key are ignored *)
Inductive group_adds : str -> gitem -> Prop :=
| ga_pause w t : pause_text w -> pause_ms w t -> group_adds w (GPause t)
| ga_key w c m : ~ pause_text w -> key_text w c m -> group_adds w (GKey c).
Inductive word_adds : str -> list element -> Prop :=
| wa_key w c m : key_text w c m -> word_adds w [EKey m c]
| wa_group w ks items : ~ is_key w -> In 43 w -> parts 43 w ks -> Forall2 group_adds ks items -> word_adds w [EGroup items]
| wa_pause w t : ~ is_key w -> ~ In 43 w -> pause_text w -> pause_ms w t -> word_adds w [EPause t]
| wa_text cps ess : ~ is_key (flat_map utf8 cps) -> ~ In 43 (flat_map utf8 cps) -> ~ pause_text (flat_map utf8 cps) ->
    Forall scalar cps -> Forall2 char_adds cps ess -> word_adds (flat_map utf8 cps) (concat ess).
Definition macro_text (s : str) (es : list element) : Prop :=
  exists ws ess, parts 32 s ws /\ Forall2 word_adds ws ess /\ es = concat ess.
(* the macro fits into its 256 entries *)
Definition macro_fits (es : list element) : Prop := (length (flat_map encode es) <= 256)%nat.

(* ---- escapes ------------------------------------------------------------------------- *)
Inductive unescaped : str -> str -> Prop :=
| un_nil : unescaped [] []
| un_lone : unescaped [92] []
| un_char c s t : c <> 92 -> unescaped s t -> unescaped (c :: s) (c :: t)
| un_newline s t : unescaped s t -> unescaped (92 :: 110 :: s) (10 :: t)
| un_tab s t : unescaped s t -> unescaped (92 :: 116 :: s) (9 :: t)
| un_itself c s t : c = 92 \/ c = 40 \/ c = 41 -> unescaped s t -> unescaped (92 :: c :: s) (c :: t)
| un_other c s t : c <> 110 -> c <> 116 -> c <> 92 -> c <> 40 -> c <> 41 -> unescaped s t -> unescaped (92 :: c :: s) (92 :: c :: t).

(* ---- actions ------------------------------------------------------------------------- *)
(* macro(...), a key, or a single character *)
Inductive macro_expr : str -> macro -> Prop :=
| me_macro body b es : N.of_nat (length body) < 1017 -> unescaped body b -> macro_text b es -> macro_fits es ->
    macro_expr (bs "macro(" ++ body ++ [41]) (flat_map encode es)
| me_short s es : N.of_nat (length s) < 1024 -> is_key s \/ (exists cp, scalar cp /\ s = utf8 cp) -> macro_text s es -> macro_fits es ->
    macro_expr s (flat_map encode es).
Definition command_text (s cmd : str) : Prop :=
  exists body, s = bs "command(" ++ body ++ [41] /\ N.of_nat (length s) <= 256 /\ unescaped body cmd.
(* name(arguments); what follows the closing parenthesis is ignored *)
Definition called (s name : str) (args : list str) : Prop :=
  exists items rest, items <> [] /\ Forall item items /\ ~ In 40 name /\ s = call name items ++ rest /\ args = given items.

Definition layer_arg (c : config) (s : str) (i : nat) : Prop :=
  s <> bs "main" /\ layer_of c s i /\ exists l, nth_error (c_layers c) i = Some l /\ ly_type l <> LLayout.
Definition layout_arg (c : config) (s : str) (i : nat) : Prop :=
  layer_of c s i /\ (i = O \/ exists l, nth_error (c_layers c) i = Some l /\ ly_type l = LLayout).
Definition time_arg (s : str) (t : Z) : Prop := exists z, number s z /\ t = (z mod 65536)%Z.
Definition sens_arg (s : str) (v : Z) : Prop := exists z, number s z /\ v = signed 16 z.
Definition macro_arg (c : config) (s : str) (j : nat) : Prop := exists m, nth_error (c_macros c) j = Some m /\ macro_expr s m.
(* the modifier keys and the layers they stand for *)
Definition modifier_layers : list (N * str) :=
  [(42, bs "shift"); (29, bs "control"); (125, bs "meta"); (56, bs "alt"); (100, bs "altgr")].

Inductive means (c : config) : str -> desc -> Prop :=
| means_nothing : means c [] DNone
| means_key s code m : key_text s code m -> (forall ln, ~ In (code, ln) modifier_layers) -> means c s (DKey code m)
| means_modifier s code m ln i : key_text s code m -> In (code, ln) modifier_layers -> layer_of c ln i -> means c s (DLayer i)
| means_command s cmd i : command_text s cmd -> nth_error (c_cmds c) i = Some cmd -> means c s (DCommand i)
| means_macro s m i : ~ is_key s -> macro_expr s m -> nth_error (c_macros c) i = Some m -> means c s (DMacro i)
| means_call s name args d : called s name args -> call_means c name args d -> means c s d
| means_lettermod s l k idle hold d : called s (bs "lettermod") [l; k; idle; hold] ->
    let inner := call (bs "overloadt2") [(0%nat, l); (1%nat, k); (1%nat, hold)] in
    N.of_nat (length (call (bs "overloadi") [(0%nat, k); (1%nat, inner); (1%nat, idle)])) < 1024 ->
    call_means c (bs "overloadi") [k; inner; idle] d -> means c s d
with call_means (c : config) : str -> list str -> desc -> Prop :=
| cm_layer l i : layer_arg c l i -> call_means c (bs "layer") [l] (DLayer i)
| cm_layerm l i m j : layer_arg c l i -> macro_arg c m j -> call_means c (bs "layerm") [l; m] (DLayerM i j)
| cm_oneshot l i : layer_arg c l i -> call_means c (bs "oneshot") [l] (DOneshot i)
| cm_oneshotm l i m j : layer_arg c l i -> macro_arg c m j -> call_means c (bs "oneshotm") [l; m] (DOneshotM i j)
| cm_toggle l i : layer_arg c l i -> call_means c (bs "toggle") [l] (DToggle i)
| cm_togglem n l i m j : n = bs "togglem" \/ n = bs "toggle2" -> layer_arg c l i -> macro_arg c m j -> call_means c n [l; m] (DToggleM i j)
| cm_swap l i : layer_arg c l i -> call_means c (bs "swap") [l] (DSwap i)
| cm_swapm n l i m j : n = bs "swapm" \/ n = bs "swap2" -> layer_arg c l i -> macro_arg c m j -> call_means c n [l; m] (DSwapM i j)
| cm_clear : call_means c (bs "clear") [] DClear
| cm_clearm m j : macro_arg c m j -> call_means c (bs "clearm") [m] (DClearM j)
| cm_setlayout l i : layout_arg c l i -> call_means c (bs "setlayout") [l] (DLayout i)
| cm_overload l i a j d : layer_arg c l i -> nth_error (c_descs c) j = Some d -> means c a d ->
    call_means c (bs "overload") [l; a] (DOverload i j)
| cm_overloadt n l i a j d t tv : n = bs "overloadt" \/ n = bs "overload2" -> layer_arg c l i -> nth_error (c_descs c) j = Some d -> means c a d ->
    time_arg t tv -> call_means c n [l; a; t] (DOverloadT i j tv)
| cm_overloadt2 n l i a j d t tv : n = bs "overloadt2" \/ n = bs "overload3" -> layer_arg c l i -> nth_error (c_descs c) j = Some d -> means c a d ->
    time_arg t tv -> call_means c n [l; a; t] (DOverloadT2 i j tv)
| cm_overloadi a j d b j' d' t tv : nth_error (c_descs c) j = Some d -> means c a d -> nth_error (c_descs c) j' = Some d' -> means c b d' ->
    time_arg t tv -> call_means c (bs "overloadi") [a; b; t] (DOverloadI j j' tv)
| cm_timeout a j d t tv b j' d' : nth_error (c_descs c) j = Some d -> means c a d -> time_arg t tv -> nth_error (c_descs c) j' = Some d' -> means c b d' ->
    call_means c (bs "timeout") [a; t; b] (DTimeout j tv j')
| cm_macro2 t tv r rv m j : time_arg t tv -> time_arg r rv -> macro_arg c m j -> call_means c (bs "macro2") [t; r; m] (DMacro2 tv rv j)
| cm_scroll s v : sens_arg s v -> call_means c (bs "scroll") [s] (DScroll v)
| cm_scrollt s v : sens_arg s v -> call_means c (bs "scrollt") [s] (DScrollToggle v).

(* a table of the configuration has no room left *)
Definition table_full (c : config) : Prop :=
  1024 <= N.of_nat (length (c_descs c)) \/ 256 <= N.of_nat (length (c_macros c)) \/ 64 <= N.of_nat (length (c_cmds c)).
