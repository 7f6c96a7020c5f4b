(* Specification vocabulary for included files (C53). *)
From Coq Require Import String.
From Verif Require Import Base ReadFile.
Local Open Scope N_scope.
Local Open Scope list_scope.
Local Notation length := List.length.

(* a line as it stands in the file, without its newline: no newline, no NUL, at most
   255 bytes *)
Definition a_line (l : str) : Prop := (forall x, In x l -> x <> 10 /\ x <> 0) /\ (length l < MAX_LINE_LEN)%nat.
(* the bytes of a file with these lines *)
Definition file_of (ls : list str) : str := concat (map (fun l => l ++ [10]) ls).

(* include lines; every other line is ordinary *)
Definition include_line (l : str) : Prop := exists r, l = bs "include " ++ r.
Definition includes (l name : str) : Prop :=
  (exists n, l = bs "include " ++ repeat 32 n ++ name) /\ forall r, name <> 32 :: r.

(* the two places where an included file may lie *)
Definition places (dir name : str) : list str := [dir ++ 47 :: name; DATA_DIR ++ 47 :: name].
Definition missing (fs : str -> fent) (p : str) : Prop := fs p = FMissing.

(* what a line of a file in directory [dir] contributes to the text *)
Inductive piece (fs : str -> fent) (dir : str) : str -> str -> Prop :=
| piece_line l : ~ include_line l -> piece fs dir l (l ++ [10])
| piece_dot l name : includes l name -> In 46 name -> piece fs dir l []
| piece_none l name : includes l name -> ~ In 46 name ->
    (forall p, In p (places dir name) -> missing fs p) -> piece fs dir l []
| piece_file l name before p after t : includes l name -> ~ In 46 name ->
    places dir name = before ++ p :: after -> (forall q, In q before -> missing fs q) ->
    fs p = FFile t -> piece fs dir l t
| piece_unreadable l name before p after : includes l name -> ~ In 46 name ->
    places dir name = before ++ p :: after -> (forall q, In q before -> missing fs q) ->
    fs p = FNoRead -> piece fs dir l [].

(* the path of a file in a directory *)
Definition file_in (dir path : str) : Prop :=
  exists base, path = dir ++ 47 :: base /\ ~ In 47 base /\ base <> [] /\ dir <> [] /\ last dir 0 <> 47
    /\ sizeN dir + 1 + 256 < PATH_MAX.
(* components of a path *)
Fixpoint components (s cur : str) : list str :=
  match s with
  | [] => [rev cur]
  | c :: r => if c =? 47 then rev cur :: components r [] else components r (c :: cur)
  end.
(* the path lies below the directory: no component leads out *)
Definition below (dir p : str) : Prop :=
  exists name, p = dir ++ 47 :: name /\ ~ In (bs "..") (components name []) /\ ~ In (bs ".") (components name []).
