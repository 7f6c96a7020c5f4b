(* Choice of the configuration for a device: the matching parts of config.c and
   daemon.c.  No proofs in this file. *)
From Verif Require Import Base Types Str Config.
Local Open Scope N_scope.

(* config.c:950-966 (config_check_match): 0 no match, 1 wildcard, 2 explicit.
   strstr(id, x) == id holds when x is a prefix of id. *)
Fixpoint check_ids (ids : list (str * N)) (id : str) (flags : N) : option N :=
  match ids with
  | [] => None
  | (x, f) :: r =>
      if has_prefix x id then
        if negb (N.land f ID_EXCLUDED =? 0) then Some 0
        else if negb (N.land f flags =? 0) then Some 2
        else check_ids r id flags
      else check_ids r id flags
  end.
Definition config_check_match (c : config) (id : str) (flags : N) : N :=
  match check_ids (c_ids c) id flags with
  | Some r => r
  | None => if c_wildcard c then 1 else 0
  end.

(* daemon.c:227-249 (lookup_config_ent): the index of the entry of the list
   `configs`; None for NULL *)
Fixpoint best_match (cs : list config) (id : str) (flags : N) (i : nat) (m : option nat) (rank : N)
  : option nat * N :=
  match cs with
  | [] => (m, rank)
  | c :: r =>
      let q := config_check_match c id flags in
      if rank <? q then best_match r id flags (S i) (Some i) q
      else best_match r id flags (S i) m rank
  end.
Definition lookup_config_ent (cs : list config) (id : str) (flags : N) : option nat :=
  let '(m, rank) := best_match cs id flags 0 None 0 in
  if (rank =? 1) && (flags =? ID_MOUSE) then None else m.

(* device.h:11-13 *)
Definition CAP_MOUSE : N := 1.
Definition CAP_MOUSE_ABS : N := 2.
Definition CAP_KEYBOARD : N := 4.
(* daemon.c:251-262 (manage_device): the flags of a device *)
Definition device_flags (caps : N) : N :=
  N.lor (if negb (N.land caps CAP_KEYBOARD =? 0) then ID_KEYBOARD else 0)
        (if negb (N.land caps (N.lor CAP_MOUSE CAP_MOUSE_ABS) =? 0) then ID_MOUSE else 0).
