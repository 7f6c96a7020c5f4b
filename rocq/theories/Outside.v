(* What the rest of the daemon does to a keyboard between two calls of the
   engine. *)
From Verif Require Import Base Types.

(* The clock of get_time (keyboard.c:15-20) is shared: events of other keyboards
   advance it.  In scroll mode the daemon adds mouse motion to the accumulators
   (daemon.c:513-533). *)
Inductive outside (k : kbd) : kbd -> Prop :=
| out_clock t : (k_clock k <= t)%Z -> outside k (set_k_clock t k)
| out_motion x y : outside k (set_k_scroll (mkScroll x y (s_sens (k_scroll k)) (s_active (k_scroll k))) k).
