(* ini.c *)
From Verif Require Import Base Str.
Local Open Scope N_scope.

(* ini.c:25-60 (parse_kvp).  [acc] holds the characters since the start of s in
   reverse, [sp] the reversed prefix before the last run of blanks, if the
   previous character was a blank. *)
Definition is_blank (c : N) : bool := (c =? 32) || (c =? 9).
Fixpoint kvp_scan (c : str) (acc : str) (sp : option str) : option (str * str) :=
  match c with
  | [] => None
  | x :: r =>
      if x =? 61 then
        Some (rev (match sp with Some p => p | None => acc end), drop_while is_blank r)
      else if is_blank x then
        kvp_scan r (x :: acc) (match sp with Some p => Some p | None => Some acc end)
      else kvp_scan r (x :: acc) None
  end.
(* (key, value); value None models NULL *)
Definition parse_kvp (s : str) : str * option str :=
  let r :=
    match s with
    | 61 :: r => kvp_scan r [61] None
    | _ => kvp_scan s [] None
    end in
  match r with
  | Some (k, v) => (k, Some v)
  | None => (s, None)
  end.

(* ini.h:14-34; line numbers (used in messages only) are omitted *)
Record section := mkSec { sec_name : str; sec_entries : list (str * option str) }.

Definition MAX_SECTIONS : nat := 32.
Definition MAX_SECTION_ENTRIES : N := 1024.

(* The lines of the text: ini.c:76-90.  The text after the last newline counts
   as a line even if empty. *)
Fixpoint lines_from (s : str) (cur : str) : list str :=
  match s with
  | [] => [rev cur]
  | c :: r => if c =? 10 then rev cur :: lines_from r [] else lines_from r (c :: cur)
  end.
Definition lines (s : str) : list str := lines_from s [].

(* ini.c:93-104: strip white space on both sides *)
Definition rstrip (s : str) : str := rev (drop_while isspace (rev s)).
Definition strip (s : str) : str := rstrip (drop_while isspace s).

(* ini.c:106-125: [name] *)
Definition section_name (line : str) : option str :=
  match line with
  | 91 :: r =>
      match rev r with
      | 93 :: n => Some (rev n)
      | _ => None
      end
  | _ => None
  end.

(* ini.c:69-148 (ini_parse_string) with default_section_name == NULL (the only
   use, config.c:841).  The accumulated sections are newest first, with their
   entries newest first.  Ok None models the NULL result.
   strncpy (line 116) leaves names of 256 bytes or more unterminated: such a name
   is later read beyond the array, hence UB. *)
Fixpoint ini_lines (ls : list str) (secs : list section) : res (option (list section)) :=
  match ls with
  | [] => Ok (Some (rev (map (fun s => mkSec (sec_name s) (rev (sec_entries s))) secs)))
  | l0 :: r =>
      let line := strip l0 in
      match line with
      | [] => ini_lines r secs
      | c :: _ =>
          match section_name line with
          | Some name =>
              if Nat.ltb (length secs) MAX_SECTIONS then
                if N.ltb (N.of_nat (length name)) 256 then
                  ini_lines r (mkSec name [] :: secs)
                else UB
              else Crash CIniSections
          | None =>
              if c =? 35 then ini_lines r secs
              else
                match secs with
                | [] => Ok None
                | s :: ss =>
                    if N.ltb (N.of_nat (length (sec_entries s))) MAX_SECTION_ENTRIES then
                      ini_lines r (mkSec (sec_name s) (parse_kvp line :: sec_entries s) :: ss)
                    else Crash CIniEntries
                end
          end
      end
  end.
Definition ini_parse_string (s : str) : res (option (list section)) := ini_lines (lines s) [].
