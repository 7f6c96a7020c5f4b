(* config.c, function by function.  No proofs in this file.  File access
   (read_file, resolve_include_path, lines 83-182) is not modelled here: parsing
   starts from the text. *)
From Coq Require Import String.
From Verif Require Import Base KeyTable Keys Types Str MacroParse Ini.
Local Open Scope N_scope.

(* ---- config.c:33-80 (actions) ------------------------------------------- *)
Inductive argt := AMacro | ALayer | ALayout | ATimeout | ASens | ADesc.
Inductive op :=
| OpSwap | OpClear | OpOneshot | OpToggle | OpClearM | OpSwapM | OpToggleM | OpLayerM
| OpOneshotM | OpLayer | OpOverload | OpOverloadT | OpOverloadT2 | OpOverloadI
| OpTimeout | OpMacro2 | OpLayout | OpScrollT | OpScroll.

Definition actions : list (str * op * list argt) := Eval vm_compute in
  [(bs "swap", OpSwap, [ALayer]);
   (bs "clear", OpClear, []);
   (bs "oneshot", OpOneshot, [ALayer]);
   (bs "toggle", OpToggle, [ALayer]);
   (bs "clearm", OpClearM, [AMacro]);
   (bs "swapm", OpSwapM, [ALayer; AMacro]);
   (bs "togglem", OpToggleM, [ALayer; AMacro]);
   (bs "layerm", OpLayerM, [ALayer; AMacro]);
   (bs "oneshotm", OpOneshotM, [ALayer; AMacro]);
   (bs "layer", OpLayer, [ALayer]);
   (bs "overload", OpOverload, [ALayer; ADesc]);
   (bs "overloadt", OpOverloadT, [ALayer; ADesc; ATimeout]);
   (bs "overloadt2", OpOverloadT2, [ALayer; ADesc; ATimeout]);
   (bs "overloadi", OpOverloadI, [ADesc; ADesc; ATimeout]);
   (bs "timeout", OpTimeout, [ADesc; ATimeout; ADesc]);
   (bs "macro2", OpMacro2, [ATimeout; ATimeout; AMacro]);
   (bs "setlayout", OpLayout, [ALayout]);
   (bs "scrollt", OpScrollT, [ASens]);
   (bs "scroll", OpScroll, [ASens]);
   (bs "overload2", OpOverloadT, [ALayer; ADesc; ATimeout]);
   (bs "overload3", OpOverloadT2, [ALayer; ADesc; ATimeout]);
   (bs "toggle2", OpToggleM, [ALayer; AMacro]);
   (bs "swap2", OpSwapM, [ALayer; AMacro])].

(* union descriptor_arg *)
Inductive argv := VIdx (i : nat) | VNum (z : Z).

(* d->op with d->args[0..]: the typed descriptor.  The arguments always have the
   kinds listed in the action table, so the default is never used. *)
Definition build (o : op) (args : list argv) : desc :=
  match o, args with
  | OpSwap, [VIdx l] => DSwap l
  | OpClear, [] => DClear
  | OpOneshot, [VIdx l] => DOneshot l
  | OpToggle, [VIdx l] => DToggle l
  | OpClearM, [VIdx m] => DClearM m
  | OpSwapM, [VIdx l; VIdx m] => DSwapM l m
  | OpToggleM, [VIdx l; VIdx m] => DToggleM l m
  | OpLayerM, [VIdx l; VIdx m] => DLayerM l m
  | OpOneshotM, [VIdx l; VIdx m] => DOneshotM l m
  | OpLayer, [VIdx l] => DLayer l
  | OpOverload, [VIdx l; VIdx a] => DOverload l a
  | OpOverloadT, [VIdx l; VIdx a; VNum t] => DOverloadT l a t
  | OpOverloadT2, [VIdx l; VIdx a; VNum t] => DOverloadT2 l a t
  | OpOverloadI, [VIdx a; VIdx b; VNum t] => DOverloadI a b t
  | OpTimeout, [VIdx a; VNum t; VIdx b] => DTimeout a t b
  | OpMacro2, [VNum t; VNum r; VIdx m] => DMacro2 t r m
  | OpLayout, [VIdx l] => DLayout l
  | OpScrollT, [VNum s] => DScrollToggle s
  | OpScroll, [VNum s] => DScroll s
  | _, _ => DNone
  end.

(* ---- config.c:203-226 (layer_lookup_chord) ------------------------------ *)
(* index of the first chord of which all the given keys are members *)
Fixpoint lookup_chord_from (chs : list chord) (keys : list N) (i : nat) : option nat :=
  match chs with
  | [] => None
  | c :: r =>
      if forallb (fun k => existsb (N.eqb k) (ch_keys c)) keys then Some i
      else lookup_chord_from r keys (S i)
  end.

(* config.c:246-258: the key codes of a chord; None models return -1 *)
Fixpoint chord_codes (toks : list str) (acc : list N) : option (list N) :=
  match toks with
  | [] => Some acc
  | t :: r =>
      let code := lookup_keycode t in
      if code =? 0 then None
      else if Nat.leb 8 (length acc) then None
      else chord_codes r (acc ++ [code])
  end.

(* ---- config.c:233-301 (set_layer_entry) --------------------------------- *)
(* Result: the changed layer, None for -1 *)
Definition set_layer_entry (aliases : N -> str) (l : layer) (key : str) (d : desc)
  : option layer :=
  if has_char 43 key then
    match chord_codes (tokens 43 key) [] with
    | None => None
    | Some keys =>
        match lookup_chord_from (ly_chords l) keys 0 with
        | Some i =>
            let c := nth i (ly_chords l) zero_chord in
            Some (set_ly_chords (upd i (mkChord (ch_keys c) d) (ly_chords l)) l)
        | None =>
            if Nat.ltb (length (ly_chords l)) 64 then
              Some (set_ly_chords (ly_chords l ++ [mkChord keys d]) l)
            else None
        end
    end
  else
    let hit := fun c : N => (c <? 256) && str_eqb (aliases c) key in
    if existsb (fun i => hit (N.of_nat i)) (seq 0 256) then
      Some (set_ly_keymap (fun c => if hit c then d else ly_keymap l c) l)
    else
      let code := lookup_keycode key in
      if code =? 0 then None
      else Some (set_ly_keymap (fupd (ly_keymap l) code d) l).

(* ---- config.c:968-980 (config_get_layer_index) -------------------------- *)
Fixpoint layer_index_from (ls : list layer) (name : str) (i : nat) : option nat :=
  match ls with
  | [] => None
  | l :: r => if str_eqb (ly_name l) name then Some i else layer_index_from r name (S i)
  end.
Definition config_get_layer_index (c : config) (name : str) : option nat :=
  layer_index_from (c_layers c) name 0.

(* ---- config.c:303-359 (new_layer) --------------------------------------- *)
(* Ok None models -1.  The counter n of line 318 is never incremented, so the
   bound of line 336 is never enforced: a ninth constituent is written beyond
   constituents[8] (UB). *)
Fixpoint constituents (c : config) (names : list str) (acc : list nat) : res (option (list nat)) :=
  match names with
  | [] => Ok (Some acc)
  | n :: r =>
      match config_get_layer_index c n with
      | None => Ok None
      | Some i =>
          if Nat.ltb (length acc) 8 then constituents c r (acc ++ [i]) else UB
      end
  end.
Definition new_layer (s : str) (c : config) : res (option layer) :=
  match tokens 58 s with
  | [] => UB                     (* strcpy(layer->name, NULL) *)
  | name :: rest =>
      let type := match rest with t :: _ => Some t | [] => None end in
      let mk := fun t m cs => mkLayer name t m (fun _ => DNone) [] cs in
      if has_char 43 name then
        match type with
        | Some _ => Ok None
        | None =>
            o <- constituents c (tokens 43 name) [] ;;
            Ok (match o with None => None | Some cs => Some (mk LComposite 0 cs) end)
        end
      else
        match type with
        | None => Ok (Some (mk LNormal 0 []))
        | Some t =>
            if str_eqb t (bs "layout") then Ok (Some (mk LLayout 0 []))
            else
              match parse_modset t with
              | Some m => Ok (Some (mk LNormal m []))
              | None => Ok (Some (mk LNormal 0 []))
              end
        end
  end.

(* ---- config.c:367-397 (config_add_layer) -------------------------------- *)
(* The resulting configuration (unchanged when the layer exists or on error,
   which is only logged by the caller). *)
Definition config_add_layer (c : config) (s : str) : res config :=
  if Nat.leb 65 (length s) then Ok c
  else
    let exists_ :=
      match tokens 58 s with
      | [] => None                (* config_get_layer_index(config, NULL) = -1 *)
      | n :: _ => config_get_layer_index c n
      end in
    match exists_ with
    | Some _ => Ok c
    | None =>
        if Nat.leb 32 (length (c_layers c)) then Ok c
        else
          o <- new_layer s c ;;
          Ok (match o with
              | None => c
              | Some l => set_c_layers (c_layers c ++ [l]) c
              end)
    end.

(* ---- config.c:400-470 (parse_fn) ---------------------------------------- *)
(* 424-452: scan one argument; stops at an unnested ',' or at the closing ')'.
   Result: (argument, stopping character, rest after it); None at the end of
   the string. *)
Fixpoint scan_arg (c : str) (plvl : nat) (acc : str) : option (str * N * str) :=
  match c with
  | [] => None
  | x :: r =>
      if x =? 92 then
        match r with
        | y :: r' => scan_arg r' plvl (y :: x :: acc)
        | [] => None
        end
      else if x =? 40 then scan_arg r (S plvl) (x :: acc)
      else if x =? 41 then
        match plvl with
        | O => Some (rev acc, x, r)
        | S p => scan_arg r p (x :: acc)
        end
      else if (x =? 44) && Nat.eqb plvl 0 then Some (rev acc, x, r)
      else scan_arg r plvl (x :: acc)
  end.

Definition is_space32 (c : N) : bool := c =? 32.

(* 421-469; Ok None models -1 *)
Fixpoint scan_args (fuel : nat) (c : str) (args : list str) : res (option (list str)) :=
  match fuel with
  | O => NoFuel
  | S f =>
      match scan_arg c 0 [] with
      | None => Ok None
      | Some (a, stop, r) =>
          args' <- (match a with
                    | [] => Ok args
                    | _ => if Nat.ltb (length args) 5 then Ok (args ++ [a]) else Crash CFnArgs
                    end) ;;
          if stop =? 41 then Ok (Some args')
          else scan_args f (drop_while is_space32 r) args'
      end
  end.

Fixpoint split_at_paren (s : str) (acc : str) : option (str * str) :=
  match s with
  | [] => None
  | c :: r => if c =? 40 then Some (rev acc, r) else split_at_paren r (c :: acc)
  end.

Definition parse_fn (s : str) : res (option (str * list str)) :=
  match split_at_paren s [] with
  | None => Ok None
  | Some (name, r) =>
      o <- scan_args (S (length s)) (drop_while is_space32 r) [] ;;
      Ok (match o with None => None | Some args => Some (name, args) end)
  end.

(* ---- config.c:482-518 (parse_macro_expression) -------------------------- *)
Inductive pres (A : Type) := PInvalid | PError | POk (a : A).   (* -1, 1, 0 *)
Arguments PInvalid {A}. Arguments PError {A}. Arguments POk {A}.

Definition parse_macro_expression (s : str) : res (pres macro) :=
  if N.leb 1024 (N.of_nat (length s)) then Ok PInvalid
  else if has_prefix (bs "macro(") s && (last s 0 =? 41) then
    o <- macro_parse (str_escape (skipn 6 (removelast s))) ;;
    Ok (match o with None => PError | Some m => POk m end)
  else
    valid <- (match parse_key_sequence s with
              | Some _ => Ok true
              | None => n <- utf8_strlen s ;; Ok (Nat.eqb n 1)
              end) ;;
    if valid : bool then
      o <- macro_parse s ;;
      Ok (match o with None => PError | Some m => POk m end)
    else Ok PInvalid.

(* ---- config.c:520-537 (parse_command) ----------------------------------- *)
Definition parse_command (s : str) : pres str :=
  if negb (has_prefix (bs "command(") s) || negb (last s 0 =? 41) then PInvalid
  else if N.ltb 256 (N.of_nat (length s)) then PError
  else POk (str_escape (skipn 8 (removelast s))).

(* ---- config.c:539-730 (parse_descriptor) -------------------------------- *)
(* 559-565 *)
Definition mod_layer_name (code : N) : option str :=
  if code =? K_LEFTSHIFT then Some (bs "shift")
  else if code =? K_LEFTCTRL then Some (bs "control")
  else if code =? K_LEFTMETA then Some (bs "meta")
  else if code =? K_LEFTALT then Some (bs "alt")
  else if code =? K_RIGHTALT then Some (bs "altgr")
  else None.

Fixpoint find_action (acts : list (str * op * list argt)) (name : str)
  : option (op * list argt) :=
  match acts with
  | [] => None
  | (n, o, ts) :: r => if str_eqb n name then Some (o, ts) else find_action r name
  end.

Definition layer_type_at (c : config) (i : nat) : ltype := ly_type (nth i (c_layers c) zero_layer).

(* 610-627: lettermod is rewritten to nested overloads; snprintf keeps 1023
   bytes *)
Definition lettermod_text (a0 a1 a2 a3 : str) : str :=
  firstn (Z.to_nat 1023)
    (bs "overloadi(" ++ a1 ++ bs ", overloadt2(" ++ a0 ++ bs ", " ++ a1 ++ bs ", " ++ a3
     ++ bs "), " ++ a2 ++ bs ")").

(* Arguments of kinds other than ADesc (662-717).  None models return -1; the
   configuration is returned in any case since its tables may have grown. *)
Definition parse_simple_arg (c : config) (t : argt) (s : str) : res (config * option argv) :=
  match t with
  | ALayer =>
      if str_eqb s (bs "main") then Ok (c, None)
      else
        match config_get_layer_index c s with
        | None => Ok (c, None)
        | Some i =>
            if is_layout (layer_type_at c i) then Ok (c, None) else Ok (c, Some (VIdx i))
        end
  | ALayout =>
      match config_get_layer_index c s with
      | None => Ok (c, None)
      | Some i =>
          if negb (Nat.eqb i 0) && negb (is_layout (layer_type_at c i)) then Ok (c, None)
          else Ok (c, Some (VIdx i))
      end
  | ASens => Ok (c, Some (VNum (wrap_s 16 (atoi s))))
  | ATimeout => Ok (c, Some (VNum (atoi s mod 65536)%Z))
  | AMacro =>
      if Nat.leb 256 (length (c_macros c)) then Ok (c, None)
      else
        r <- parse_macro_expression s ;;
        match r with
        | POk m => Ok (set_c_macros (c_macros c ++ [m]) c, Some (VIdx (length (c_macros c))))
        | _ => Ok (c, None)
        end
  | ADesc => Ok (c, None)     (* handled by the caller *)
  end.

(* [fuel] bounds the nesting; 2 * length + 2 suffices (see parse_descriptor). *)
Fixpoint parse_desc (fuel : nat) (c : config) (s : str) : res (config * option desc) :=
  match fuel with
  | O => NoFuel
  | S f =>
      match s with
      | [] => Ok (c, Some DNone)
      | _ =>
          match parse_key_sequence s with
          | Some (code, mods) =>
              match mod_layer_name code with
              | Some ln =>
                  match config_get_layer_index c ln with
                  | Some i => Ok (c, Some (DLayer i))
                  | None => Crash CModLayer
                  end
              | None => Ok (c, Some (DKey code mods))
              end
          | None =>
              match parse_command s with
              | POk cmd =>
                  if Nat.leb 64 (length (c_cmds c)) then Ok (c, None)
                  else Ok (set_c_cmds (c_cmds c ++ [cmd]) c, Some (DCommand (length (c_cmds c))))
              | PError => Ok (c, None)
              | PInvalid =>
                  r <- parse_macro_expression s ;;
                  match r with
                  | POk m =>
                      if Nat.leb 256 (length (c_macros c)) then Ok (c, None)
                      else Ok (set_c_macros (c_macros c ++ [m]) c, Some (DMacro (length (c_macros c))))
                  | PError => Ok (c, None)
                  | PInvalid =>
                      o <- parse_fn s ;;
                      match o with
                      | None => Ok (c, None)
                      | Some (fn, args) =>
                          o2 <- (if str_eqb fn (bs "lettermod") then
                                   match args with
                                   | [a0; a1; a2; a3] => parse_fn (lettermod_text a0 a1 a2 a3)
                                   | _ => Ok None
                                   end
                                 else Ok (Some (fn, args))) ;;
                          match o2 with
                          | None => Ok (c, None)
                          | Some (fn2, args2) =>
                              match find_action actions fn2 with
                              | None => Ok (c, None)
                              | Some (oper, types) =>
                                  if negb (Nat.eqb (length args2) (length types)) then Ok (c, None)
                                  else
                                    (* while (j--): arguments from last to first *)
                                    '(c', vals) <-
                                      (fix go (ts : list (argt * str)) (c : config) (vals : list argv)
                                         : res (config * option (list argv)) :=
                                         match ts with
                                         | [] => Ok (c, Some vals)
                                         | (t, a) :: r =>
                                             '(c1, v) <-
                                               match t with
                                               | ADesc =>
                                                   '(c1, d) <- parse_desc f c a ;;
                                                   match d with
                                                   | None => Ok (c1, None)
                                                   | Some d =>
                                                       if N.leb 1024 (N.of_nat (length (c_descs c1)))
                                                       then Ok (c1, None)
                                                       else Ok (set_c_descs (c_descs c1 ++ [d]) c1,
                                                                Some (VIdx (length (c_descs c1))))
                                                   end
                                               | _ => parse_simple_arg c t a
                                               end ;;
                                             match v with
                                             | None => Ok (c1, None)
                                             | Some v => go r c1 (v :: vals)
                                             end
                                         end) (rev (combine types args2)) c [] ;;
                                    Ok (c', match vals with
                                            | None => None
                                            | Some vs => Some (build oper vs)
                                            end)
                              end
                          end
                      end
                  end
              end
          end
      end
  end.
Definition parse_descriptor (c : config) (s : str) : res (config * option desc) :=
  parse_desc (2 * length s + 2) c s.

(* ---- config.c:986-1027 (config_add_entry) ------------------------------- *)
(* The boolean is true for return value 0.  The configuration is returned also
   on failure (its tables may have grown). *)
Definition config_add_entry (c : config) (exp : str) : res (config * bool) :=
  if N.leb 512 (N.of_nat (length exp)) then Ok (c, false)
  else
    let dot := find_char 46 exp 0 in
    let paren := find_char 40 exp 0 in
    let '(lname, s) :=
      match dot with
      | Some (S d) =>
          let before := match paren with None => true | Some p => Nat.ltb (S d) p end in
          if before then (firstn (S d) exp, skipn (S (S d)) exp) else (bs "main", exp)
      | _ => (bs "main", exp)
      end in
    let '(key, val) := parse_kvp s in
    match config_get_layer_index c lname with
    | None => Ok (c, false)
    | Some idx =>
        '(c1, d) <- (match val with
                     | None => Ok (c, Some DNone)
                     | Some v => parse_descriptor c v
                     end) ;;
        match d with
        | None => Ok (c1, false)
        | Some d =>
            match set_layer_entry (c_aliases c1) (nth idx (c_layers c1) zero_layer) key d with
            | None => Ok (c1, false)
            | Some l => Ok (set_c_layers (upd idx l (c_layers c1)) c1, true)
            end
        end
    end.

(* ---- config.c:732-763 (parse_global_section) ---------------------------- *)
(* atoi(NULL) / snprintf("%s", NULL): UB for an option without value *)
Definition u8_flag (z : Z) : bool := negb (z mod 256 =? 0)%Z.
Definition parse_global_entry (c : config) (e : str * option str) : res config :=
  let '(key, val) := e in
  let num (f : Z -> config -> config) : res config :=
    match val with Some v => Ok (f (atoi v) c) | None => UB end in
  if str_eqb key (bs "macro_timeout") then num set_c_macro_timeout
  else if str_eqb key (bs "macro_sequence_timeout") then num set_c_macro_seq_timeout
  else if str_eqb key (bs "disable_modifier_guard") then num (fun z => set_c_no_guard (u8_flag z))
  else if str_eqb key (bs "oneshot_timeout") then num set_c_oneshot_timeout
  else if str_eqb key (bs "chord_hold_timeout") then num set_c_chord_hold
  else if str_eqb key (bs "chord_timeout") then num set_c_chord_interkey
  else if str_eqb key (bs "default_layout") then
    match val with Some v => Ok (set_c_default_layout (firstn 63 v) c) | None => UB end
  else if str_eqb key (bs "macro_repeat_timeout") then num set_c_macro_repeat
  else if str_eqb key (bs "layer_indicator") then num (fun z => set_c_indicator (u8_flag z))
  else if str_eqb key (bs "overload_tap_timeout") then num set_c_tap_timeout
  else Ok c.

(* ---- config.c:765-800 (parse_id_section) -------------------------------- *)
Definition ID_EXCLUDED : N := 1.   (* config.h:23-25 *)
Definition ID_MOUSE : N := 2.
Definition ID_KEYBOARD : N := 4.
Definition add_id (c : config) (id : str) (flags : N) : res config :=
  if Nat.ltb (length (c_ids c)) 64 then Ok (set_c_ids (c_ids c ++ [(firstn 63 id, flags)]) c)
  else Crash CIds.
Definition parse_id_entry (c : config) (e : str * option str) : res config :=
  let s := fst e in
  if str_eqb s (bs "*") then Ok (set_c_wildcard true c)
  else if has_prefix (bs "m:") s then add_id c (skipn 2 s) ID_MOUSE
  else if has_prefix (bs "k:") s then add_id c (skipn 2 s) ID_KEYBOARD
  else if has_prefix (bs "-") s then add_id c (skipn 1 s) ID_EXCLUDED
  else if Nat.ltb (length s) 63 then add_id c s (N.lor ID_KEYBOARD ID_MOUSE)
  else Ok c.

(* ---- config.c:802-833 (parse_alias_section) ----------------------------- *)
(* strlen(NULL): UB for a key without value.  If no layer exists yet (never the
   case for user text) the write to layers[0] is dropped. *)
Definition parse_alias_entry (c : config) (e : str * option str) : res config :=
  let '(key, val) := e in
  let code := lookup_keycode key in
  if code =? 0 then Ok c
  else
    match val with
    | None => UB
    | Some name =>
        if Nat.leb 32 (length name) then Ok c
        else
          let acode := lookup_keycode name in
          let c1 :=
            if acode =? 0 then c
            else
              match c_layers c with
              | [] => c
              | l :: r => set_c_layers (set_ly_keymap (fupd (ly_keymap l) code (DKey acode 0)) l :: r) c
              end in
          Ok (set_c_aliases (fupd (c_aliases c1) code name) c1)
    end.

Fixpoint foldr_res {A} (f : config -> A -> res config) (es : list A) (c : config) : res config :=
  match es with
  | [] => Ok c
  | e :: r => c1 <- f c e ;; foldr_res f r c1
  end.

(* ---- config.c:836-890 (config_parse_string) ----------------------------- *)
Definition pass1_section (c : config) (s : section) : res config :=
  if str_eqb (sec_name s) (bs "ids") then foldr_res parse_id_entry (sec_entries s) c
  else if str_eqb (sec_name s) (bs "aliases") then foldr_res parse_alias_entry (sec_entries s) c
  else if str_eqb (sec_name s) (bs "global") then foldr_res parse_global_entry (sec_entries s) c
  else config_add_layer c (sec_name s).

(* 871-886; a NULL layer name printed with %s is UB *)
Definition pass2_entry (lname : option str) (c : config) (e : str * option str) : res config :=
  match snd e with
  | None => Ok c
  | Some v =>
      match lname with
      | None => UB
      | Some ln =>
          let entry := firstn 511 (ln ++ bs "." ++ fst e ++ bs " = " ++ v) in
          '(c1, _) <- config_add_entry c entry ;; Ok c1
      end
  end.
Definition pass2_section (c : config) (s : section) : res config :=
  if str_eqb (sec_name s) (bs "ids") || str_eqb (sec_name s) (bs "aliases")
     || str_eqb (sec_name s) (bs "global") then Ok c
  else foldr_res (pass2_entry (hd_error (tokens 58 (sec_name s)))) (sec_entries s) c.

(* Ok None models -1 *)
Definition config_parse_string (c : config) (content : str) : res (option config) :=
  o <- ini_parse_string content ;;
  match o with
  | None => Ok None
  | Some secs =>
      c1 <- foldr_res pass1_section secs c ;;
      c2 <- foldr_res pass2_section secs c1 ;;
      Ok (Some c2)
  end.

(* ---- config.c:892-936 (config_init) ------------------------------------- *)
Definition zero_config : config :=
  mkConfig [] [] [] [] (fun _ => []) false [] 0 0 0 0 0 0 0 false false [].
Definition nl : str := [10].
Definition default_config_text : str :=
  bs "[aliases]" ++ nl
  ++ bs "leftshift = shift" ++ nl ++ bs "rightshift = shift" ++ nl
  ++ bs "leftalt = alt" ++ nl ++ bs "rightalt = altgr" ++ nl
  ++ bs "leftmeta = meta" ++ nl ++ bs "rightmeta = meta" ++ nl
  ++ bs "leftcontrol = control" ++ nl ++ bs "rightcontrol = control" ++ nl
  ++ bs "[main:layout]" ++ nl
  ++ bs "shift = layer(shift)" ++ nl ++ bs "alt = layer(alt)" ++ nl
  ++ bs "altgr = layer(altgr)" ++ nl ++ bs "meta = layer(meta)" ++ nl
  ++ bs "control = layer(control)" ++ nl
  ++ bs "[control:C]" ++ nl ++ bs "[shift:S]" ++ nl ++ bs "[meta:M]" ++ nl
  ++ bs "[alt:A]" ++ nl ++ bs "[altgr:G]" ++ nl.
Definition config_init : res config :=
  o <- config_parse_string zero_config default_config_text ;;
  match o with
  | None => Ok zero_config     (* return value ignored; does not happen *)
  | Some c =>
      Ok (set_c_macro_repeat 50 (set_c_macro_timeout 600 (set_c_oneshot_timeout 0
            (set_c_chord_hold 0 (set_c_chord_interkey 50 c)))))
  end.

(* ---- config.c:938-948 (config_parse), from the file's text -------------- *)
Definition config_parse (content : str) : res (option config) :=
  c <- config_init ;; config_parse_string c content.

(* ---- keyboard.c:1209-1217 (kbd_eval) ------------------------------------ *)
Definition kbd_eval (k : kbd) (exp : str) : res (kbd * bool) :=
  if str_eqb exp (bs "reset") then Ok (set_k_cfg (k_orig k) k, true)
  else '(c, ok) <- config_add_entry (k_cfg k) exp ;; Ok (set_k_cfg c k, ok).
