(* Specification vocabulary for C68: a computation that comes to an end. *)
From Verif Require Import Base.

(* The depth of recursion the model is allowed is irrelevant as soon as it is large
   enough: from there on the result is r, and there is no other result. *)
Definition comes_to {A} (F : nat -> res A) (r : res A) : Prop :=
  r <> NoFuel /\ (exists n, forall fuel, (n <= fuel)%nat -> F fuel = r) /\ forall fuel, F fuel = NoFuel \/ F fuel = r.
