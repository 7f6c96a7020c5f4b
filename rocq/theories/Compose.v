(* scripts/generate_xcompose: the compose file of the applications and the table of
   unicode.c, both made from data/unicode.txt. *)
From Coq Require Import String.
From Verif Require Import Base Types Str UnicodeTable SpecNotation.
Local Open Scope N_scope.
Local Open Scope list_scope.

(* scripts/generate_xcompose:6 (readlines): the lines of the file *)
Fixpoint lines_from (s cur : str) : list str :=
  match s with
  | [] => match cur with [] => [] | _ => [rev cur] end
  | c :: r => if c =? 10 then rev cur :: lines_from r [] else lines_from r (c :: cur)
  end.
Definition lines_of (s : str) : list str := lines_from s [].

(* scripts/generate_xcompose:8: line.split(';')[0] *)
Fixpoint field (s : str) : str :=
  match s with
  | [] => []
  | c :: r => if c =? 59 then [] else c :: field r
  end.
(* scripts/generate_xcompose:8: int(..., 16).  Simplified: only digits are read; Python
   would also take blanks around them, a sign, "0x" and underscores, none of which the
   Unicode data contains. *)
Definition hex_digit (c : N) : option N :=
  if (48 <=? c) && (c <=? 57) then Some (c - 48)
  else if (65 <=? c) && (c <=? 70) then Some (c - 55)
  else if (97 <=? c) && (c <=? 102) then Some (c - 87)
  else None.
Fixpoint hex_from (s : str) (n : N) : option N :=
  match s with
  | [] => Some n
  | c :: r => match hex_digit c with Some d => hex_from r (16 * n + d) | None => None end
  end.
Definition hex (s : str) : option N := match s with [] => None | _ => hex_from s 0 end.
(* scripts/generate_xcompose:11: chr(code).encode('utf8') does not raise *)
Definition encodable (cp : N) : bool := (cp <? 1114112) && negb ((55296 <=? cp) && (cp <=? 57343)).
(* scripts/generate_xcompose:5-16: codes *)
Definition line_code (l : str) : list N :=
  match hex (field l) with
  | Some cp => if encodable cp && (128 <=? cp) then [cp] else []
  | None => []
  end.
Definition codes_of (data : str) : list N := flat_map line_code (lines_of data).

(* scripts/generate_xcompose:20-29 (base36) *)
Definition b36_chars : str := bs "0123456789abcdefghijklmnopqrstuvwxyz".
Definition base36 (n : N) : str :=
  [nth (N.to_nat (n / (36 * 36) mod 36)) b36_chars 0;
   nth (N.to_nat (n / 36 mod 36)) b36_chars 0;
   nth (N.to_nat (n mod 36)) b36_chars 0].

(* scripts/generate_xcompose:34-37: one line of data/keyd.compose *)
Fixpoint join (sep : str) (l : list str) : str :=
  match l with
  | [] => []
  | [x] => x
  | x :: r => x ++ sep ++ join sep r
  end.
Definition compose_line (n cp : N) : str :=
  bs "<Cancel> " ++ join (bs " ") (map (fun c => 60 :: c :: [62]) (base36 n))
  ++ bs " : """ ++ utf8 cp ++ [34; 10].
(* scripts/generate_xcompose:33-39: data/keyd.compose *)
Fixpoint compose_from (n : N) (codes : list N) : str :=
  match codes with
  | [] => []
  | cp :: r => compose_line n cp ++ compose_from (n + 1) r
  end.
Definition compose_file (codes : list N) : str := compose_from 0 codes.

(* scripts/generate_xcompose:55-65, unicode.c:9-19 (unicode_lookup_index), on the table
   as an array *)
Fixpoint table_lookup (codes : list N) (cp i : N) : option N :=
  match codes with
  | [] => None
  | c :: r => if c =? cp then Some i else table_lookup r cp (i + 1)
  end.

(* unicode.c:7: the table of the release, from its runs (UnicodeTable.v).  data/keyd.compose
   of the release is [compose_file shipped_codes]: compared byte by byte, outside Coq, with
   the file. *)
Fixpoint upfrom (f : N) (n : nat) : list N :=
  match n with
  | O => []
  | S n => f :: upfrom (f + 1) n
  end.
Definition expand (runs : list (N * N)) : list N := flat_map (fun r => upfrom (fst r) (N.to_nat (snd r))) runs.
Definition shipped_codes : list N := expand unicode_runs.
