(* macro.c: macro_parse; unicode.c: unicode_lookup_index. *)
From Coq Require Import String.
From Verif Require Import Base KeyTable Keys Types Str UnicodeTable.
Local Open Scope N_scope.

(* unicode.c:9-19 (unicode_lookup_index), on the run-length encoded table *)
Fixpoint runs_index (runs : list (N * N)) (cp : N) (base : N) : option N :=
  match runs with
  | [] => None
  | (s, n) :: r =>
      if (s <=? cp) && (cp <? s + n) then Some (base + (cp - s))
      else runs_index r cp (base + n)
  end.
Definition unicode_lookup_index (cp : N) : option N := runs_index unicode_runs cp 0.

(* macro.c:12-21 (ADD_ENTRY): None when the macro is full; data is a uint16_t *)
Definition add_entry (m : macro) (t : mtype) (d : N) : option macro :=
  if Nat.ltb (length m) 256 then Some (m ++ [mkM t (d mod 65536)]) else None.

Definition timeval_data (s : str) : N := Z.to_N (atoi s mod 65536)%Z.

(* macro.c:33-48: the keys of a '+' group.  None models return -1. *)
Fixpoint parse_group (keys : list str) (m : macro) : option macro :=
  match keys with
  | [] => add_entry m MRelease 0
  | k :: r =>
      match (if is_timeval k then add_entry m MTimeout (timeval_data k)
             else match parse_key_sequence k with
                  | Some (code, _) => add_entry m MHold code
                  | None => None
                  end) with
      | None => None
      | Some m' => parse_group r m'
      end
  end.

(* macro.c:57-70: the key typing one ASCII character: first table row whose name
   or shifted name is that single character *)
Definition is_char (o : option str) (c : N) : bool :=
  match o with Some [x] => x =? c | _ => false end.
Fixpoint ascii_key (tbl : list keyent) (i : N) (c : N) : option N :=
  match tbl with
  | [] => None
  | (name, _, shifted) :: r =>
      if is_char name c then Some i
      else if is_char shifted c then Some (N.lor (N.shiftl MOD_SHIFT 8) i)
      else ascii_key r (i + 1) c
  end.

(* macro.c:49-76: literal text.  The inner option models return -1. *)
Fixpoint parse_text (fuel : nat) (tok : str) (m : macro) : res (option macro) :=
  match fuel with
  | O => Ok (Some m)
  | S f =>
      '(sz, cp) <- utf8_read_char tok ;;
      match sz with
      | O => Ok (Some m)
      | _ =>
          let next :=
            if Nat.eqb sz 1 && (cp <? 128) then
              match ascii_key keycode_table 0 (ch tok 0) with
              | Some d => add_entry m MKeySeq d
              | None => Some m
              end
            else
              match unicode_lookup_index cp with
              | Some x => if 0 <? x then add_entry m MUnicode x else Some m
              | None => Some m
              end in
          match next with
          | None => Ok None
          | Some m' => parse_text f (skipn sz tok) m'
          end
      end
  end.

(* macro.c:25-77: one blank separated token *)
Definition parse_token (tok : str) (m : macro) : res (option macro) :=
  match parse_key_sequence tok with
  | Some (code, mods) => Ok (add_entry m MKeySeq (N.lor (N.shiftl mods 8) code))
  | None =>
      if has_char 43 tok then Ok (parse_group (tokens 43 tok) m)
      else if is_timeval tok then Ok (add_entry m MTimeout (timeval_data tok))
      else parse_text (S (length tok)) tok m
  end.

Fixpoint parse_tokens (toks : list str) (m : macro) : res (option macro) :=
  match toks with
  | [] => Ok (Some m)
  | t :: r =>
      o <- parse_token t m ;;
      match o with
      | None => Ok None
      | Some m' => parse_tokens r m'
      end
  end.

(* macro.c:8-83 (macro_parse): None for -1 *)
Definition macro_parse (s : str) : res (option macro) := parse_tokens (tokens 32 s) [].
