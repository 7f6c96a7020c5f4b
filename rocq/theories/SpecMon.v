(* What the kernel writes to an inotify descriptor (inotify(7)): records with a header of 16
   bytes and, unless it is empty, the name with its zero and padding.  Used by PropMon.v. *)
From Coq Require Import String.
From Verif Require Import Base Client.
Local Open Scope N_scope.
Local Open Scope list_scope.
Local Notation length := List.length.

Record record := mkRec { rc_wd : N; rc_mask : N; rc_cookie : N; rc_name : option (str * nat) }.
(* the name is followed by 1 + pad zeros *)
Definition name_field (r : record) : list N :=
  match rc_name r with Some (s, pad) => s ++ repeat 0 (S pad) | None => [] end.
Definition bytes_of (r : record) : list N :=
  le 4 (rc_wd r) ++ le 4 (rc_mask r) ++ le 4 (rc_cookie r) ++ le 4 (N.of_nat (length (name_field r))) ++ name_field r.

(* File names: not empty, no zero byte *)
Definition named (r : record) : Prop :=
  exists s pad, rc_name r = Some (s, pad) /\ ~ In 0 s.
(* A record without a name (the queue overflowed) is only allowed in front of another one; the
   watch descriptors of the program are below 101 (it has one watch) *)
Fixpoint regular (rs : list record) : Prop :=
  match rs with
  | [] => True
  | r :: rest =>
      (named r \/ (rc_name r = None /\ exists r2 rest', rest = r2 :: rest' /\ rc_wd r2 < 101)) /\ regular rest
  end.
(* What one read returns *)
Definition chunk (rs : list record) (b : list N) : Prop :=
  rs <> [] /\ regular rs /\ b = concat (map bytes_of rs) /\ Nat.le (length b) 4096.

Section Nodes.
Context {D : Type}.
Variable init : nat -> str -> option D.

(* The devices of a list of names: those that begin with "event" are opened one after the
   other; [n] counts them *)
Inductive opened : nat -> list str -> list D -> nat -> Prop :=
| opened_none n : opened n [] [] n
| opened_other n s l ds n' :
    (forall r, s <> bs "event" ++ r) -> opened n l ds n' -> opened n (s :: l) ds n'
| opened_device n r l d ds n' :
    init n (firstn 1023 (bs "/dev/input/event" ++ r)) = Some d -> opened (S n) l ds n' ->
    opened n ((bs "event" ++ r) :: l) (d :: ds) n'
| opened_useless n r l ds n' :
    init n (firstn 1023 (bs "/dev/input/event" ++ r)) = None -> opened (S n) l ds n' ->
    opened n ((bs "event" ++ r) :: l) ds n'.

Definition names_of (rs : list record) : list str :=
  flat_map (fun r => match rc_name r with Some (s, _) => [s] | None => [] end) rs.
End Nodes.
