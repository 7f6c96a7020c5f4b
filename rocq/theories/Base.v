(* Outcomes, strings and small list utilities shared by every model file. *)
From Coq Require Export List ZArith NArith Bool.
From Coq Require Import String Ascii.
Export ListNotations.

(* Which assertion (or explicit exit) stopped the program.  Asserts are live:
   /repo/Makefile never defines NDEBUG. *)
Inductive crash : Type :=
| CLayerInactive   (* keyboard.c:247  assert(layer_state[idx].active > 0) *)
| CChordQueue      (* keyboard.c:312  assert(chord.queue_sz < 32) *)
| CTimeouts        (* keyboard.c:456  assert(nr_timeouts < 64) *)
| CActiveChords    (* keyboard.c:867  assert(code) in resolve_chord *)
| CPendingQueue    (* keyboard.c:1039 assert(pending_key.queue_sz < 32) *)
| CFnArgs          (* config.c:456    assert(nargs < 5) in parse_fn *)
| CModLayer        (* config.c:576    assert(d->args[0].idx != -1) *)
| CIds             (* config.c:777-795 assert(nr_ids < 64) *)
| CUtf8            (* string.c:18-30  asserts on continuation bytes *)
| CIniSections     (* ini.c:110       assert(n < MAX_SECTIONS) *)
| CIniEntries      (* ini.c:139       assert(nr_entries < MAX_SECTION_ENTRIES) *)
| CDevices         (* evloop.c:134     assert(device_table_sz < MAX_DEVICES) *)
.

(* Result of running a piece of C code.  [UB] stands for undefined behaviour
   (out of bounds access, NULL dereference); [NoFuel] is an artefact of the
   fuelled definitions and is shown to be avoidable. *)
Inductive res (A : Type) : Type :=
| Ok (a : A)
| Crash (c : crash)
| UB
| NoFuel.
Arguments Ok {A}. Arguments Crash {A}. Arguments UB {A}. Arguments NoFuel {A}.

Definition bind {A B} (x : res A) (f : A -> res B) : res B :=
  match x with
  | Ok a => f a
  | Crash c => Crash c
  | UB => UB
  | NoFuel => NoFuel
  end.

Notation "x <- e ;; f" := (bind e (fun x => f))
  (at level 61, e at next level, right associativity).
Notation "' p <- e ;; f" := (bind e (fun x => match x with p => f end))
  (at level 61, p pattern, e at next level, right associativity).

(* C strings: the bytes before the terminating NUL (so never 0 themselves). *)
Definition str := list N.

Fixpoint bs (s : string) : str :=
  match s with
  | EmptyString => []
  | String a r => N_of_ascii a :: bs r
  end.

Fixpoint str_eqb (a b : str) : bool :=
  match a, b with
  | [], [] => true
  | x :: a', y :: b' => N.eqb x y && str_eqb a' b'
  | _, _ => false
  end.

(* Array-like update of a list; out of range indices leave it unchanged. *)
Fixpoint upd {A} (i : nat) (x : A) (l : list A) : list A :=
  match l, i with
  | [], _ => []
  | _ :: r, O => x :: r
  | y :: r, S i' => y :: upd i' x r
  end.

(* Update of a total function on N / nat (arrays of fixed size). *)
Definition fupd {A} (f : N -> A) (i : N) (x : A) : N -> A :=
  fun j => if N.eqb j i then x else f j.
Definition nupd {A} (f : nat -> A) (i : nat) (x : A) : nat -> A :=
  fun j => if Nat.eqb j i then x else f j.
