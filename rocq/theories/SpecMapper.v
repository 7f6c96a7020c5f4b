(* Specification vocabulary for C85: what app.conf says, which windows a filter describes, which
   bindings are in force.  No function of the model of the script is used. *)
From Coq Require Import String.
From Verif Require Import Base Types Kbd Config Daemon SpecClient Mapper.
Local Open Scope list_scope.
Local Open Scope N_scope.

(* ---- the file ------------------------------------------------------------------------ *)
Definition eol (c : N) : Prop := c = 10 \/ c = 13.
Inductive lines_of : str -> list str -> Prop :=
| lines_last s : Forall (fun c => ~ eol c) s -> lines_of s [s]
| lines_more s c rest ls : Forall (fun c => ~ eol c) s -> eol c -> lines_of rest ls -> lines_of (s ++ c :: rest) (s :: ls).
(* a text without the white space around it *)
Definition bare (space : N -> bool) (s : str) : Prop :=
  match s with [] => True | c :: _ => space c = false /\ space (last s 0) = false end.
Definition within (space : N -> bool) (line s : str) : Prop :=
  exists a b, line = a ++ s ++ b /\ Forall (fun c => space c = true) a /\ Forall (fun c => space c = true) b /\ bare space s.
(* what a line without white space around it means: nothing, a comment, [class], [class|title]
   (what follows a second bar is ignored), or a binding *)
Inductive means : str -> content -> Prop :=
| mean_blank : means [] Skip
| mean_comment s : means (35 :: s) Skip
| mean_class c : ~ In 124 c -> means (91 :: c ++ [93]) (Head c [42])
| mean_title c t rest : ~ In 124 c -> ~ In 124 t -> rest = [] \/ (exists r, rest = 124 :: r) ->
    means (91 :: c ++ 124 :: t ++ rest ++ [93]) (Head c t)
| mean_entry x s : x <> 35 -> ~ (x = 91 /\ last (x :: s) 0 = 93) -> means (x :: s) (Entry (x :: s)).
(* a section has the bindings up to the next one; before the first one there is none *)
Inductive entries : list content -> list str -> Prop :=
| entries_nil : entries [] []
| entries_skip cs es : entries cs es -> entries (Skip :: cs) es
| entries_add e cs es : entries cs es -> entries (Entry e :: cs) (e :: es).
Inductive sections : list content -> list app_section -> Prop :=
| sections_nil : sections [] []
| sections_skip cs ss : sections cs ss -> sections (Skip :: cs) ss
| sections_head cls title body es rest ss : entries body es -> sections rest ss ->
    sections (Head cls title :: body ++ rest) ((cls, title, es) :: ss).
Definition file_says (text : str) (ss : list app_section) : Prop :=
  exists ls cs, lines_of text ls /\ Forall2 (fun l c => exists s, within py_space l s /\ means s c) ls cs /\ sections cs ss.

(* ---- filters ------------------------------------------------------------------------- *)
Inductive fits : str -> str -> Prop :=
| fits_nil : fits [] []
| fits_star p a s : fits p s -> fits (42 :: p) (a ++ s)
| fits_any p x s : fits p s -> fits (63 :: p) (x :: s)
| fits_same p x s : x <> 42 -> fits p s -> fits (x :: p) (x :: s).
Definition suits (lib : pylib) (p s : str) : Prop :=
  (~ In 91 p /\ fits p s) \/ (In 91 p /\ py_brackets lib p s = true).
(* the words of a name, and the words joined by hyphens *)
Inductive spelt (ok : N -> bool) : str -> list str -> Prop :=
| spelt_nil : spelt ok [] []
| spelt_other c s ws : ok c = false -> spelt ok s ws -> spelt ok (c :: s) ws
| spelt_word w s ws : w <> [] -> Forall (fun c => ok c = true) w -> (s = [] \/ exists c r, s = c :: r /\ ok c = false) ->
    spelt ok s ws -> spelt ok (w ++ s) (w :: ws).
Fixpoint joined (ws : list str) : str :=
  match ws with [] => [] | [w] => w | w :: r => w ++ 45 :: joined r end.
(* the bindings for a window: those of all sections whose filters suit, in their order *)
Inductive chosen (lib : pylib) (cls title : str) : list app_section -> list str -> Prop :=
| chosen_nil : chosen lib cls title [] []
| chosen_yes c t b ss bs : suits lib c cls -> suits lib t title -> chosen lib cls title ss bs ->
    chosen lib cls title ((c, t, b) :: ss) (b ++ bs)
| chosen_no c t b ss bs : ~ (suits lib c cls /\ suits lib t title) -> chosen lib cls title ss bs ->
    chosen lib cls title ((c, t, b) :: ss) bs.

(* ---- the script over time ------------------------------------------------------------ *)
(* the windows focused so far, each with the file as it was; the time of the file tells
   whether it was changed *)
Inductive mapping (lib : pylib) : app_file -> mstate -> Prop :=
| mapping_start f st : mapper_start f f = Some st -> mapping lib f st
| mapping_window f0 f st st' cls title args : mapping lib f0 st ->
    (af_mtime f = af_mtime f0 -> af_text f = af_text f0) ->
    on_window_change lib f st cls title = Some (st', args) -> mapping lib f st'.

(* ---- the daemon ---------------------------------------------------------------------- *)
(* calls of the handler one after the other; the texts of the requests to bind among them; no
   request to load the files *)
Inductive handled (fuel : nat) (wr : nat -> bool) : dstate -> list str -> dstate -> Prop :=
| handled_nil d : handled fuel wr d [] d
| handled_bind d con m texts grabs ts d1 t a args d' : i_type m = IBind -> carries m a -> i_timeout m <= 1000000 ->
    event_handler fuel wr (EvClient con m texts grabs) ts d = Ok (d1, t) -> handled fuel wr d1 args d' ->
    handled fuel wr d (a :: args) d'
| handled_other d ev ts d1 t args d' :
    match ev with EvClient _ m _ _ => i_type m <> IBind /\ i_type m <> IReload | _ => True end ->
    event_handler fuel wr ev ts d = Ok (d1, t) -> handled fuel wr d1 args d' -> handled fuel wr d args d'.
(* the configuration after some bindings, beginning with c; reset goes back to c0 (what one
   binding does: C31) *)
Inductive in_force (c0 : config) : config -> list str -> config -> Prop :=
| force_nil c : in_force c0 c [] c
| force_reset c as_ c' : in_force c0 c0 as_ c' -> in_force c0 c (bs "reset" :: as_) c'
| force_bind c a as_ c1 ok c' : a <> bs "reset" -> config_add_entry c a = Ok (c1, ok) -> in_force c0 c1 as_ c' ->
    in_force c0 c (a :: as_) c'.
