(* scripts/keyd-application-mapper: which bindings are asked for when the focus changes.

   A text is a list of code points (the file is opened in text mode).  What the Python library
   does that is not plain text handling is an input (record [pylib]): matching of patterns
   with brackets, the classification of characters outside ASCII, lower case, the encoding of
   arguments.  None stands for an exception, which ends the script.  Not modelled: how the
   focused window is found out (lines 90-404: KDE, wlroots, Cosmic, X), options, the lock file. *)
From Coq Require Import String.
From Verif Require Import Base.
Local Open Scope list_scope.
Local Open Scope N_scope.
Local Notation length := List.length.

Record pylib := mkLib {
  py_brackets : str -> str -> bool;  (* fnmatch with a pattern that contains [ *)
  py_word : N -> bool;               (* the class \w of re *)
  py_lower : str -> str;             (* str.lower *)
  py_encode : str -> str             (* os.fsencode *)
}.

(* str.strip(): the white space of str.isspace *)
Definition py_space (c : N) : bool :=
  ((9 <=? c) && (c <=? 13)) || ((28 <=? c) && (c <=? 32)) || (c =? 133) || (c =? 160) || (c =? 5760)
  || ((8192 <=? c) && (c <=? 8202)) || (c =? 8232) || (c =? 8233) || (c =? 8239) || (c =? 8287) || (c =? 12288).
Fixpoint drop (f : N -> bool) (s : str) : str :=
  match s with [] => [] | c :: r => if f c then drop f r else s end.
Definition strip (f : N -> bool) (s : str) : str := rev (drop f (rev (drop f s))).
(* str.split with one separator, lines of a file *)
Fixpoint split (f : N -> bool) (s : str) : list str :=
  match s with
  | [] => [[]]
  | c :: r => if f c then [] :: split f r
              else match split f r with [] => [[c]] | p :: ps => (c :: p) :: ps end
  end.
(* lines end with \n, \r or \r\n (universal newlines); an empty line more makes no difference *)
Definition is_eol (c : N) : bool := (c =? 10) || (c =? 13).

(* keyd-application-mapper:63-88 (parse_config): what a line is *)
Inductive content := Skip | Head (cls title : str) | Entry (s : str).
Definition kind (line : str) : content :=
  match line with
  | [] => Skip
  | c :: r =>
      if (c =? 91) && (last line 0 =? 93) then
        match split (N.eqb 124) (removelast r) with
        | cls :: title :: _ => Head cls title
        | [cls] => Head cls [42]
        | [] => Skip
        end
      else if c =? 35 then Skip else Entry line
  end.
(* ... and the sections; an entry before the first one is an exception (the variable bindings
   is not yet assigned).  Newest section first. *)
Definition app_section : Type := str * str * list str.
Definition add_line (acc : option (list app_section)) (x : content) : option (list app_section) :=
  match acc with
  | None => None
  | Some secs =>
      match x with
      | Skip => Some secs
      | Head cls title => Some ((cls, title, []) :: secs)
      | Entry e => match secs with
                   | [] => None
                   | (cls, title, b) :: r => Some ((cls, title, b ++ [e]) :: r)
                   end
      end
  end.
Definition parse_config (text : str) : option (list app_section) :=
  option_map (@rev _) (fold_left add_line (map (fun l => kind (strip py_space l)) (split is_eol text)) (Some [])).

(* fnmatch.fnmatch for patterns without brackets *)
Fixpoint wild (p : str) : str -> bool :=
  match p with
  | [] => fun s => match s with [] => true | _ => false end
  | c :: p' =>
      if c =? 42 then fix star (s : str) : bool := wild p' s || match s with [] => false | _ :: r => star r end
      else fun s => match s with [] => false | x :: r => ((c =? 63) || (c =? x)) && wild p' r end
  end.
Definition fnmatch (lib : pylib) (s p : str) : bool :=
  if existsb (N.eqb 91) p then py_brackets lib p s else wild p s.

(* keyd-application-mapper:517-524 (lookup_bindings) *)
Definition lookup_bindings (lib : pylib) (config : list app_section) (cls title : str) : list str :=
  flat_map (fun '(cexp, texp, b) => if fnmatch lib cls cexp && fnmatch lib title texp then b else []) config.

(* re.sub('[^..]+', '-', s): every run of other characters becomes one - *)
Fixpoint squeeze (ok : N -> bool) (s : str) (inside : bool) : str :=
  match s with
  | [] => []
  | c :: r => if ok c then c :: squeeze ok r false
              else if inside then squeeze ok r true else 45 :: squeeze ok r true
  end.
Definition hyphenate (ok : N -> bool) (s : str) : str := strip (N.eqb 45) (squeeze ok s false).
(* keyd-application-mapper:526-530 (normalize_class, normalize_title) *)
Definition alnum (c : N) : bool :=
  ((48 <=? c) && (c <=? 57)) || ((65 <=? c) && (c <=? 90)) || ((97 <=? c) && (c <=? 122)).
Definition lower (c : N) : N := if (65 <=? c) && (c <=? 90) then c + 32 else c.
Definition normalize_class (s : str) : str := map lower (hyphenate alnum s).
Definition title_char (lib : pylib) (c : N) : bool := py_word lib c && negb (c =? 95).
Definition normalize_title (lib : pylib) (s : str) : str := py_lower lib (hyphenate (title_char lib) s).

(* the file app.conf at some moment, and what the script keeps *)
Record app_file := mkFile { af_mtime : Z; af_text : str }.
Record mstate := mkM { ms_config : list app_section; ms_mtime : Z }.

(* keyd-application-mapper:514, 532: the file is parsed, then its time is asked for; it
   may have been written in between *)
Definition mapper_start (parsed asked : app_file) : option mstate :=
  match parse_config (af_text parsed) with
  | Some c => Some (mkM c (af_mtime asked))
  | None => None
  end.
(* keyd-application-mapper:533-551 (on_window_change): the new state and the arguments given to
   `keyd bind`.  subprocess.run refuses an argument with a zero byte. *)
Definition on_window_change (lib : pylib) (f : app_file) (st : mstate) (cls title : str) : option (mstate * list str) :=
  let cls := normalize_class cls in
  let title := normalize_title lib title in
  match (if (af_mtime f =? ms_mtime st)%Z then Some st
         else match parse_config (af_text f) with Some c => Some (mkM c (af_mtime f)) | None => None end) with
  | None => None
  | Some st' =>
      let b := map (py_encode lib) (lookup_bindings lib (ms_config st') cls title) in
      if existsb (existsb (N.eqb 0)) b then None else Some (st', bs "reset" :: b)
  end.

(* keyd-application-mapper:445-463 (GnomeMonitor.run): a line from the extension, or SIGUSR1 *)
Inductive gevent := GLine (line : str) | GSignal.
Record gstate := mkG { g_st : mstate; g_cls : str; g_title : str }.
Definition gnome_step (lib : pylib) (f : app_file) (g : gstate) (ev : gevent) : option (gstate * list str) :=
  match ev with
  | GSignal =>
      match on_window_change lib f (g_st g) (g_cls g) (g_title g) with
      | Some (st, args) => Some (mkG st (g_cls g) (g_title g), args)
      | None => None
      end
  | GLine line =>
      match split (N.eqb 9) (strip (N.eqb 10) line) with
      | [cls; title] =>
          match on_window_change lib f (g_st g) cls title with
          | Some (st, args) => Some (mkG st cls title, args)
          | None => None
          end
      | _ =>
          match on_window_change lib f (g_st g) [] [] with
          | Some (st, args) => Some (mkG st (g_cls g) (g_title g), args)
          | None => None
          end
      end
  end.
