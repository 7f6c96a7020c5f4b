(* Reading a configuration file with its includes, config.c:83-182.  No proofs in this
   file.  The file system is a function; access(2), open(2) and read(2) see the same
   contents. *)
From Coq Require Import String.
From Verif Require Import Base Types Str Config.
Local Open Scope N_scope.
Local Open Scope list_scope.
Local Notation length := List.length.

(* config.c:27-28; PATH_MAX of the system's limits.h *)
Definition MAX_FILE_SZ : N := 65536.
Definition MAX_LINE_LEN : nat := 256.
Definition PATH_MAX : N := 4096.
(* Makefile:7,19 with the default PREFIX *)
Definition DATA_DIR : str := bs "/usr/local/share/keyd".

(* what a path names: nothing, something that cannot be read (a directory, no
   permission), or a file *)
Inductive fent := FMissing | FNoRead | FFile (content : str).

(* the C string at the start of an array *)
Fixpoint zstr (l : list N) : str :=
  match l with
  | [] => []
  | x :: r => if x =? 0 then [] else x :: zstr r
  end.
Definition sizeN (l : list N) : N := N.of_nat (length l).
Fixpoint takeN (n : N) (l : list N) : list N :=
  match l with
  | [] => []
  | x :: r => if n =? 0 then [] else x :: takeN (n - 1) r
  end.

(* dirname(3) for paths that do not end with a slash: "." without a slash, else
   what precedes the last slash, without trailing slashes unless it is the root *)
Definition dirname (path : str) : str :=
  if has_char 47 path then
    match drop_while (fun c => c =? 47) (drop_while (fun c => negb (c =? 47)) (rev path)) with
    | [] => [47]
    | r => rev r
    end
  else [46].

(* config.c:83-107 (resolve_include_path); snprintf cuts at PATH_MAX - 1 *)
Definition exists_file (e : fent) : bool := match e with FMissing => false | _ => true end.
Definition resolve_include_path (fs : str -> fent) (path name : str) : option str :=
  if has_char 46 name then None
  else
    let p1 := takeN (PATH_MAX - 1) (dirname path ++ 47 :: name) in
    if exists_file (fs p1) then Some p1
    else
      let p2 := takeN (PATH_MAX - 1) (DATA_DIR ++ 47 :: name) in
      if exists_file (fs p2) then Some p2 else None.

(* config.c:150-170: what is appended for an include line; read(2) fills what is left
   of the buffer *)
Definition included (fs : str -> fent) (path name : str) (room : N) : str :=
  match resolve_include_path fs path name with
  | None => []
  | Some p => match fs p with FFile c => takeN room c | _ => [] end
  end.

(* The successive results of fgets(line, MAX_LINE_LEN+1, fh): up to a newline or
   MAX_LINE_LEN characters.  [cur] is what was read of the present one, reversed. *)
Fixpoint chunks (s cur : str) (room : nat) : list str :=
  match s with
  | [] => match cur with [] => [] | _ => [rev cur] end
  | c :: r =>
      if (c =? 10) || Nat.leb room 1 then rev (c :: cur) :: chunks r [] MAX_LINE_LEN
      else chunks r (c :: cur) (room - 1)
  end.

(* config.c:123-175, the body of the loop.  [line] is the array of MAX_LINE_LEN+1
   bytes, [buf] the first sz bytes of the static buffer (what lies behind is
   overwritten or cut off later).  None: the goto fail.
   - strlen 0 (the line starts with a NUL byte) reads line[-1];
   - the newline put in place of the terminating NUL leaves the string running on
     into what the array held before. *)
Definition read_chunk (fs : str -> fent) (path chunk line buf : str) : res (option (str * str)) :=
  let line0 := chunk ++ 0 :: skipn (S (length chunk)) line in
  match length (zstr line0) with
  | O => UB
  | S l =>
      let nl := nth l line0 0 =? 10 in
      if negb nl && Nat.leb MAX_LINE_LEN (S l) then Ok None
      else
        let line1 := if nl then line0 else upd (S l) 10 line0 in
        let len := if nl then S l else S (S l) in
        if MAX_FILE_SZ <? N.of_nat len + sizeN buf then Ok None
        else if has_prefix (bs "include ") line1 then
          let line2 := upd (len - 1) 0 line1 in
          let name := drop_while (fun c => c =? 32) (zstr (skipn 8 line2)) in
          Ok (Some (line2, buf ++ included fs path name (MAX_FILE_SZ - sizeN buf)))
        else if negb (has_char 0 line1) then UB
        else if MAX_FILE_SZ <=? sizeN buf + sizeN (zstr line1) then UB
        else Ok (Some (line1, buf ++ firstn len line1))
  end.
Fixpoint read_chunks (fs : str -> fent) (path : str) (cs : list str) (line buf : str) : res (option str) :=
  match cs with
  | [] => Ok (Some buf)
  | c :: r =>
      o <- read_chunk fs path c line buf ;;
      match o with
      | None => Ok None
      | Some (line1, buf1) => read_chunks fs path r line1 buf1
      end
  end.

(* config.c:109-182 (read_file): the C string in the returned buffer.  [junk] is the
   uninitialised content of the array line. *)
Definition read_file (fs : str -> fent) (junk path : str) : res (option str) :=
  match fs path with
  | FFile content =>
      o <- read_chunks fs path (chunks content [] MAX_LINE_LEN) junk [] ;;
      match o with
      | None => Ok None
      | Some buf => if MAX_FILE_SZ <=? sizeN buf then UB else Ok (Some (zstr buf))
      end
  | _ => Ok None
  end.

(* config.c:938-948 (config_parse), from the path *)
Definition config_parse_file (fs : str -> fent) (junk path : str) : res (option config) :=
  o <- read_file fs junk path ;;
  match o with
  | None => Ok None
  | Some text => config_parse text
  end.
