(* string.c and the C library string functions the parsers use. *)
From Verif Require Import Base.
Local Open Scope N_scope.

(* s[i] of a C string: 0 at the terminator *)
Definition ch (s : str) (i : nat) : N := nth i s 0.

(* string.c:10-36 (utf8_read_char): (size, code point); size 0 at the end *)
Definition utf8_read_char (s : str) : res (nat * N) :=
  match s with
  | [] => Ok (0%nat, 0)
  | b0 :: _ =>
      if 240 <=? b0 then
        if (ch s 1 =? 0) || (ch s 2 =? 0) || (ch s 3 =? 0) then Crash CUtf8
        else Ok (4%nat,
                 N.lor (N.lor (N.lor (N.shiftl (N.land b0 7) 18)
                                     (N.shiftl (N.land (ch s 1) 63) 12))
                              (N.shiftl (N.land (ch s 2) 63) 6))
                       (N.land (ch s 3) 63))
      else if 224 <=? b0 then
        if (ch s 1 =? 0) || (ch s 2 =? 0) then Crash CUtf8
        else Ok (3%nat,
                 N.lor (N.lor (N.shiftl (N.land b0 15) 12)
                              (N.shiftl (N.land (ch s 1) 63) 6))
                       (N.land (ch s 2) 63))
      else if 192 <=? b0 then
        if ch s 1 =? 0 then Crash CUtf8
        else Ok (2%nat, N.lor (N.shiftl (N.land b0 31) 6) (N.land (ch s 1) 63))
      else Ok (1%nat, N.land b0 127)
  end.

(* string.c:38-50 (utf8_strlen).  Fuel: the length of the string suffices since
   every character has at least one byte. *)
Fixpoint utf8_strlen_from (fuel : nat) (s : str) (n : nat) : res nat :=
  match fuel with
  | O => Ok n
  | S f =>
      '(sz, _) <- utf8_read_char s ;;
      match sz with
      | O => Ok n
      | _ => utf8_strlen_from f (skipn sz s) (S n)
      end
  end.
Definition utf8_strlen (s : str) : res nat := utf8_strlen_from (S (length s)) s 0.

Definition is_digit (c : N) : bool := (48 <=? c) && (c <=? 57).

Fixpoint skip_digits (s : str) : str :=
  match s with
  | c :: r => if is_digit c then skip_digits r else s
  | [] => []
  end.

(* string.c:52-61 (is_timeval) *)
Definition is_timeval (s : str) : bool :=
  if is_digit (ch s 0) then
    let r := skip_digits s in
    (ch r 0 =? 109) && (ch r 1 =? 115) && ((ch r 2 =? 0) || (ch r 2 =? 10))
  else false.

(* string.c:66-107 (str_escape): the rewritten string *)
Fixpoint str_escape (s : str) : str :=
  match s with
  | 92 :: r =>                        (* '\\' *)
      match r with
      | [] => []
      | 110 :: r' => 10 :: str_escape r'     (* n *)
      | 116 :: r' => 9 :: str_escape r'      (* t *)
      | 92 :: r' => 92 :: str_escape r'
      | 41 :: r' => 41 :: str_escape r'
      | 40 :: r' => 40 :: str_escape r'
      | c :: r' => 92 :: c :: str_escape r'
      end
  | c :: r => c :: str_escape r
  | [] => []
  end.

(* isspace in the C locale *)
Definition isspace (c : N) : bool := (c =? 32) || ((9 <=? c) && (c <=? 13)).

Fixpoint drop_while (p : N -> bool) (s : str) : str :=
  match s with
  | c :: r => if p c then drop_while p r else s
  | [] => []
  end.

(* atoi: leading white space, optional sign, digits.  glibc: strtol (saturating
   at the long range) converted to int (wrapping). *)
Fixpoint digits_val (acc : Z) (s : str) : Z :=
  match s with
  | c :: r => if is_digit c then digits_val (acc * 10 + Z.of_N (c - 48))%Z r else acc
  | [] => acc
  end.
Definition wrap_s (bits : Z) (z : Z) : Z :=
  ((z + 2 ^ (bits - 1)) mod 2 ^ bits - 2 ^ (bits - 1))%Z.
Definition clamp_long (z : Z) : Z :=
  Z.max (- 2 ^ 63) (Z.min (2 ^ 63 - 1) z).
Definition atoi (s : str) : Z :=
  let s1 := drop_while isspace s in
  let v :=
    match s1 with
    | 45 :: r => (- digits_val 0 r)%Z
    | 43 :: r => digits_val 0 r
    | _ => digits_val 0 s1
    end in
  wrap_s 32 (clamp_long v).

(* strtok with a one character delimiter set: the non-empty pieces *)
Fixpoint tokens_from (delim : N) (s : str) (cur : str) : list str :=
  match s with
  | [] => match cur with [] => [] | _ => [rev cur] end
  | c :: r =>
      if c =? delim then
        match cur with
        | [] => tokens_from delim r []
        | _ => rev cur :: tokens_from delim r []
        end
      else tokens_from delim r (c :: cur)
  end.
Definition tokens (delim : N) (s : str) : list str := tokens_from delim s [].

(* strchr(s, c) != NULL *)
Definition has_char (c : N) (s : str) : bool := existsb (N.eqb c) s.

(* strstr(s, p) == s *)
Fixpoint has_prefix (p s : str) : bool :=
  match p, s with
  | [], _ => true
  | x :: p', y :: s' => N.eqb x y && has_prefix p' s'
  | _ :: _, [] => false
  end.

(* Position of the first c in s *)
Fixpoint find_char (c : N) (s : str) (i : nat) : option nat :=
  match s with
  | [] => None
  | x :: r => if x =? c then Some i else find_char c r (S i)
  end.
