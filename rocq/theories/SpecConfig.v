(* Specification of what a configuration file as a whole means (C60), over the sections of
   its text (C40) and the meaning of actions (C59). *)
From Coq Require Import String.
From Verif Require Import Base KeyTable Types SpecNotation SpecText SpecBind SpecExpr.
Local Open Scope N_scope.
Local Open Scope list_scope.
Local Notation length := List.length.

Definition sections := list (str * list (str * option str)).
(* the last element with a property, if any *)
Definition last_with {A} (P : A -> Prop) (l : list A) (o : option A) : Prop :=
  match o with
  | None => forall a, In a l -> ~ P a
  | Some a => exists pre post, l = pre ++ a :: post /\ P a /\ forall b, In b post -> ~ P b
  end.
(* the entries of all sections of a name *)
Definition entries_of (n : str) (secs : sections) : list (str * option str) :=
  flat_map (fun s => if str_eqb (fst s) n then snd s else []) secs.

(* ---- options --------------------------------------------------------------------------- *)
Definition numbers : list (str * (config -> Z) * Z) :=
  [(bs "macro_timeout", c_macro_timeout, 600%Z); (bs "macro_repeat_timeout", c_macro_repeat, 50%Z);
   (bs "macro_sequence_timeout", c_macro_seq_timeout, 0%Z); (bs "oneshot_timeout", c_oneshot_timeout, 0%Z);
   (bs "chord_timeout", c_chord_interkey, 50%Z); (bs "chord_hold_timeout", c_chord_hold, 0%Z);
   (bs "overload_tap_timeout", c_tap_timeout, 0%Z)].
Definition flags : list (str * (config -> bool)) :=
  [(bs "disable_modifier_guard", c_no_guard); (bs "layer_indicator", c_indicator)].
(* the value given last *)
Definition option_value (secs : sections) (name : str) (o : option (option str)) : Prop :=
  exists e, last_with (fun e : str * option str => fst e = name) (entries_of (bs "global") secs) e /\ o = option_map snd e.

(* ---- aliases --------------------------------------------------------------------------- *)
Definition default_aliases : list (str * str) :=
  [(bs "leftshift", bs "shift"); (bs "rightshift", bs "shift"); (bs "leftalt", bs "alt"); (bs "rightalt", bs "altgr");
   (bs "leftmeta", bs "meta"); (bs "rightmeta", bs "meta"); (bs "leftcontrol", bs "control"); (bs "rightcontrol", bs "control")].
Definition valued (es : list (str * option str)) : list (str * str) :=
  flat_map (fun e => match snd e with Some v => [(fst e, v)] | None => [] end) es.
Definition aliases_of (secs : sections) : list (str * str) := default_aliases ++ valued (entries_of (bs "aliases") secs).
(* an alias for the key; names of 32 characters and more are ignored *)
Definition alias_for (code : N) (e : str * str) : Prop := table_name (fst e) code /\ (length (snd e) < 32)%nat.
(* the key itself is made that of the alias if this is a key's name *)
Definition alias_binds (code : N) (e : str * str) : Prop := alias_for code e /\ exists a, table_name (snd e) a.

(* ---- layers ---------------------------------------------------------------------------- *)
Record head := mkHead { h_name : str; h_type : ltype; h_mods : N; h_parts : list nat }.
Definition head_of (l : layer) : head := mkHead (ly_name l) (ly_type l) (ly_mods l) (ly_const l).
Definition default_heads : list head :=
  [mkHead (bs "main") LLayout 0 []; mkHead (bs "control") LNormal 8 []; mkHead (bs "shift") LNormal 4 [];
   mkHead (bs "meta") LNormal 2 []; mkHead (bs "alt") LNormal 1 []; mkHead (bs "altgr") LNormal 16 []].
Definition position (hs : list head) (n : str) (i : nat) : Prop :=
  first (fun h => h_name h = n) hs i.
Definition modset (t : str) (m : N) : Prop := exists ls, denotes ls m /\ (t = joined ls \/ t = dashed ls).
(* the kind of a layer by what follows the colon *)
Inductive kind : list str -> ltype -> N -> Prop :=
| kind_plain : kind [] LNormal 0
| kind_layout r : kind (bs "layout" :: r) LLayout 0
| kind_mods t r m : t <> bs "layout" -> modset t m -> kind (t :: r) LNormal m
| kind_other t r : t <> bs "layout" -> (forall m, ~ modset t m) -> kind (t :: r) LNormal 0.
(* a section header declares a layer *)
Inductive declares (hs : list head) : str -> head -> Prop :=
| declares_plain s n r t m : parts 58 s (n :: r) -> ~ In 43 n -> kind r t m -> declares hs s (mkHead n t m [])
| declares_composite s n ns is : parts 58 s [n] -> In 43 n -> parts 43 n ns -> Forall2 (position hs) ns is ->
    declares hs s (mkHead n LComposite 0 is).
(* ... if it is new and there is room *)
Definition new_name (hs : list head) (s : str) : Prop :=
  exists n r, parts 58 s (n :: r) /\ forall i, ~ position hs n i.
Inductive layers_after : list head -> sections -> list head -> Prop :=
| la_nil hs : layers_after hs [] hs
| la_special hs n es secs hs' : special n -> layers_after hs secs hs' -> layers_after hs ((n, es) :: secs) hs'
| la_new hs n es secs hs' h : ~ special n -> (length n <= 64)%nat -> new_name hs n -> (length hs < 32)%nat -> declares hs n h ->
    layers_after (hs ++ [h]) secs hs' -> layers_after hs ((n, es) :: secs) hs'
| la_old hs n es secs hs' : ~ special n -> (64 < length n)%nat \/ ~ new_name hs n \/ (32 <= length hs)%nat \/ (forall h, ~ declares hs n h) ->
    layers_after hs secs hs' -> layers_after hs ((n, es) :: secs) hs'.

(* ---- bindings -------------------------------------------------------------------------- *)
(* the layer a section is about: its name up to the colon *)
Fixpoint upto (d : N) (s : str) : str := match s with [] => [] | c :: r => if c =? d then [] else c :: upto d r end.
Fixpoint after_leading (d : N) (s : str) : str := match s with c :: r => if c =? d then after_leading d r else s | [] => [] end.
Definition layer_part (n : str) : str := upto 58 (after_leading 58 n).
Definition is_special (n : str) : bool := str_eqb n (bs "ids") || str_eqb n (bs "aliases") || str_eqb n (bs "global").
Definition bindings (ln : str) (secs : sections) : list (str * str) :=
  flat_map (fun s => if negb (is_special (fst s)) && str_eqb (layer_part (fst s)) ln then valued (snd s) else []) secs.
Definition meaningful (c : config) (v : str) : Prop := exists d, means c v d.
(* the binding is one of the key *)
Definition binds (c : config) (code : N) (b : str * str) : Prop :=
  ~ In 43 (fst b) /\ stands_for c (fst b) code /\ meaningful c (snd b).
(* without one: in main, what an alias makes of it, or the layer of a modifier *)
Definition modifier_keys : list (N * nat) :=
  [(29, 1%nat); (97, 1%nat); (42, 2%nat); (54, 2%nat); (125, 3%nat); (126, 3%nat); (56, 4%nat); (100, 5%nat)].
Definition unbound_main (secs : sections) (code : N) (d : desc) : Prop :=
  exists o, last_with (alias_binds code) (valued (entries_of (bs "aliases") secs)) o /\
    match o with
    | Some e => exists a, table_name (snd e) a /\ d = DKey a 0
    | None => (exists i, In (code, i) modifier_keys /\ d = DLayer i) \/ (forall i, ~ In (code, i) modifier_keys) /\ d = DNone
    end.
Definition unbound (secs : sections) (i : nat) (code : N) (d : desc) : Prop :=
  match i with O => unbound_main secs code d | _ => d = DNone end.
(* chords: the bindings with a plus sign in their order *)
Definition chord_binding (c : config) (b : str * str) (codes : list N) : Prop :=
  In 43 (fst b) /\ (exists ns, pluses (fst b) ns /\ Forall2 table_name ns codes) /\ (length codes <= 8)%nat /\ meaningful c (snd b).
Inductive chords_after (c : config) : list chord -> list (str * str) -> list chord -> Prop :=
| ca_nil chs : chords_after c chs [] chs
| ca_change chs b bs codes d chs1 chs' : chord_binding c b codes -> means c (snd b) d -> chord_change codes d chs chs1 ->
    (length chs1 <= 64)%nat -> chords_after c chs1 bs chs' -> chords_after c chs (b :: bs) chs'
| ca_full chs b bs codes chs' : chord_binding c b codes -> Forall (fun x => ~ incl codes (ch_keys x)) chs -> (64 <= length chs)%nat ->
    chords_after c chs bs chs' -> chords_after c chs (b :: bs) chs'
| ca_other chs b bs chs' : (forall codes, ~ chord_binding c b codes) -> chords_after c chs bs chs' -> chords_after c chs (b :: bs) chs'.

(* files within the limits of the reader: aliases are not empty; layer names do not contain a
   dot or parenthesis, values are valid UTF-8, and bindings are below 512 bytes *)
Definition orderly_binding (n : str) (e : str * option str) : Prop :=
  match e with
  | (_, None) => True
  | (k, Some v) => utf8_text v /\ (length (layer_part n) + length k + length v <= 507)%nat
  end.
Definition orderly (secs : sections) : Prop :=
  Forall (fun e => snd e <> Some []) (entries_of (bs "aliases") secs)
  /\ Forall (fun s => ~ special (fst s) -> ~ In 46 (layer_part (fst s)) /\ ~ In 40 (layer_part (fst s)) /\ Forall (orderly_binding (fst s)) (snd s)) secs.
