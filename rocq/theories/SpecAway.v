(* Specification for C83: what is asked of a keyboard, what the rest of the daemon does
   meanwhile, and what can be seen of it. *)
From Verif Require Import Base Types Kbd Config Outside.
Local Open Scope nat_scope.

(* What the daemon asks of a keyboard: to take events, or to take a binding.  What it
   answers: the delay after which it wants to be called again, or whether it took the
   binding. *)
Inductive act := Given (fuel : nat) (evs : list kev) | Told (exp : str).
Inductive answered := Delay (t : Z) | Took (ok : bool).
Definition does (a : act) (k : kbd) : res (kbd * answered) :=
  match a with
  | Given fuel evs => match kbd_process_events fuel k evs with Ok (k1, t) => Ok (k1, Delay t) | Crash c => Crash c | UB => UB | NoFuel => NoFuel end
  | Told exp => match kbd_eval k exp with Ok (k1, ok) => Ok (k1, Took ok) | Crash c => Crash c | UB => UB | NoFuel => NoFuel end
  end.

(* A keyboard made when the clock of layer activations showed clk, in the company of
   others: before, between and after the acts the clock may be advanced and scroll motion
   may be added, any number of times. *)
Inductive life (c : config) (clk : Z) : list act -> list answered -> kbd -> Prop :=
| life_start : life c clk [] [] (new_keyboard c clk)
| life_act acts rs a k k1 r : life c clk acts rs k -> does a k = Ok (k1, r) -> life c clk (acts ++ [a]) (rs ++ [r]) k1
| life_outside acts rs k k1 : life c clk acts rs k -> outside k k1 -> life c clk acts rs k1.

(* The same acts, with nothing else happening. *)
Fixpoint alone (acts : list act) (k : kbd) : res (kbd * list answered) :=
  match acts with
  | [] => Ok (k, [])
  | a :: rest =>
      match does a k with
      | Ok (k1, r) => match alone rest k1 with Ok (k2, rs) => Ok (k2, r :: rs) | Crash c => Crash c | UB => UB | NoFuel => NoFuel end
      | Crash c => Crash c | UB => UB | NoFuel => NoFuel
      end
  end.

(* Two keyboards that cannot be told apart by what they have written, the keys the host
   sees down, their bindings and their layers. *)
Definition alike (k k' : kbd) : Prop :=
  k_out k' = k_out k /\ k_ks k' = k_ks k /\ k_cfg k' = k_cfg k
  /\ forall i, l_active (k_ls k' i) = l_active (k_ls k i) /\ l_toggled (k_ls k' i) = l_toggled (k_ls k i).
(* the same outcome, whatever it is *)
Definition agree (r r' : res (kbd * answered)) : Prop :=
  match r, r' with
  | Ok (k, a), Ok (k', a') => alike k k' /\ a' = a
  | Crash c, Crash c' => c' = c
  | UB, UB | NoFuel, NoFuel => True
  | _, _ => False
  end.
