(* macro.c: macro_execute, and unicode.c: unicode_get_sequence. *)
From Verif Require Import Base Keys Types.
Local Open Scope N_scope.

(* unicode.c:23-29 (chars[36]): KEYD_0, KEYD_1..KEYD_9, KEYD_A..KEYD_Z, with the
   values of keys.h:33-82. *)
Definition b36_keys : list N :=
  [11; 2; 3; 4; 5; 6; 7; 8; 9; 10;
   30; 48; 46; 32; 18; 33; 34; 35; 23; 36; 37; 38; 50; 49; 24; 25; 16; 19; 31;
   20; 22; 47; 17; 45; 21; 44].

(* unicode.c:21-35 (unicode_get_sequence): codes[0..3] *)
Definition unicode_get_sequence (idx : N) : list N :=
  [K_CANCEL;
   nth (N.to_nat (idx / (36 * 36) mod 36)) b36_keys 0;
   nth (N.to_nat (idx / 36 mod 36)) b36_keys 0;
   nth (N.to_nat (idx mod 36)) b36_keys 0].

(* usleep takes a 32 bit unsigned argument *)
Definition sleep_of (t : Z) : oev := OSleep (Z.to_N (t mod 4294967296)%Z).

(* macro.c:121-142: one KEYSEQUENCE entry *)
Definition mexec_keyseq (timeout : Z) (data : N) : list oev :=
  let code := data mod 256 in
  let mods := (data / 256) mod 256 in
  map (fun mk => OKey (snd mk) true) (filter (fun mk => hasmod (fst mk) mods) modifiers)
  ++ (if negb (mods =? 0) && negb (timeout =? 0)%Z then [sleep_of timeout] else [])
  ++ [OKey code true; OKey code false]
  ++ map (fun mk => OKey (snd mk) false) (filter (fun mk => hasmod (fst mk) mods) modifiers).

(* macro.c:85-166 (macro_execute): the effects in order.  [held] is the list of
   entries since hold_start (None for hold_start == -1), oldest first. *)
Fixpoint mexec (timeout : Z) (held : option (list mentry)) (m : list mentry)
  : list oev :=
  match m with
  | [] => []
  | e :: rest =>
      let step :=
        match m_type e with
        | MHold => [OKey (m_data e mod 256) true]
        | MRelease =>
            match held with
            | Some es => map (fun x => OKey (m_data x mod 256) false) es
            | None => []
            end
        | MUnicode =>
            flat_map (fun c => [OKey c true; OKey c false])
                     (unicode_get_sequence (m_data e))
        | MKeySeq => mexec_keyseq timeout (m_data e)
        | MTimeout => [OSleep (m_data e * 1000)]
        end in
      let held' :=
        match m_type e, held with
        | MHold, None => Some [e]
        | MRelease, _ => None
        | _, Some es => Some (es ++ [e])
        | _, None => None
        end in
      step
      ++ (if negb (timeout =? 0)%Z then [sleep_of timeout] else [])
      ++ mexec timeout held' rest
  end.
Definition macro_execute (m : macro) (timeout : Z) : list oev := mexec timeout None m.
