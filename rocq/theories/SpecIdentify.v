(* Specification vocabulary for C65: what an event node is and how its id is written. *)
From Coq Require Import ZArith.
From Verif Require Import Base Types Str Config Match SpecText Daemon Identify SpecDaemon.
Local Open Scope N_scope.

(* the kernel says that the device has the key *)
Definition reports (n : node) (code : N) : Prop := exists keys, nd_keys n = Some keys /\ keys code = true.
(* 1 2 3 4 5 6 7 8 9 0 q w e r t y *)
Definition first_keys : list N := [2; 3; 4; 5; 6; 7; 8; 9; 10; 11; 16; 17; 18; 19; 20; 21].
(* a full keyboard, or brightness up, or volume up *)
Definition keyboard_like (n : node) : Prop :=
  (forall c, In c first_keys -> reports n c) \/ reports n 225 \/ reports n 115.
(* an absolute axis among the first eight; such an axis or a relative one *)
Definition absolute (n : node) : Prop := exists a, nd_abs n = Some a /\ a <> 0.
Definition pointer_like (n : node) : Prop := absolute n \/ exists r, nd_rel n = Some r /\ r <> 0.
(* every question is answered *)
Definition answers (n : node) : Prop :=
  nd_open n = true /\ nd_keys n <> None /\ nd_rel n <> None /\ nd_abs n <> None /\ nd_name n <> None
  /\ (absolute n -> nd_x n <> None /\ nd_y n <> None) /\ nd_id n <> None.

(* ---- numbers in lower case hexadecimal ------------------------------------------------ *)
Definition digit_value (c v : N) : Prop := 48 <= c <= 57 /\ v = c - 48 \/ 97 <= c <= 102 /\ v = c - 87.
Inductive numeral : str -> N -> Prop :=
| numeral_nil : numeral [] 0
| numeral_digit s v c d : numeral s v -> digit_value c d -> numeral (s ++ [c]) (16 * v + d).
Definition field (w : nat) (v : N) (s : str) : Prop := numeral s v /\ length s = w.

(* ---- the part of the id that tells nodes with the same vendor and product apart --------- *)
Definition signed (c : N) : Z := if c <? 128 then Z.of_N c else (Z.of_N c - 256)%Z.
(* how many codes below 288 the device has *)
Definition keys_number (keys : N -> bool) : nat := length (filter keys (map N.of_nat (seq 0 288))).
Definition told_name (n : node) (name : str) : str :=
  if Nat.ltb (length name) 64 then name else firstn 64 name ++ firstn 255 (nd_path n).
Inductive traits (n : node) : list Z -> Prop :=
| traits_of keys rel abs name :
    nd_keys n = Some keys -> nd_rel n = Some rel -> nd_abs n = Some abs -> nd_name n = Some name ->
    traits n ([0; 0; Z.of_nat (keys_number keys) / 256; Z.of_nat (keys_number keys) mod 256; Z.of_N abs; Z.of_N rel]%Z
              ++ map signed (told_name n name)).
(* a polynomial in 33 *)
Fixpoint weigh (l : list Z) : Z :=
  match l with
  | [] => 0
  | c :: r => c * 33 ^ Z.of_nat (length r) + weigh r
  end%Z.
Definition uid_of (l : list Z) : N := Z.to_N ((5183 * 33 ^ Z.of_nat (length l) + weigh l) mod 2 ^ 32)%Z.

(* the kernel's numbers are in range *)
Definition in_range (n : node) : Prop :=
  (forall r, nd_rel n = Some r -> r < 256) /\ (forall a, nd_abs n = Some a -> a < 256)
  /\ (forall s, nd_name n = Some s -> Forall (fun c => 1 <= c < 256) s) /\ Forall (fun c => 1 <= c < 256) (nd_path n)
  /\ (forall v p, nd_id n = Some (v, p) -> v < 65536 /\ p < 65536).

(* ---- runs of the daemon whose devices come from nodes ------------------------------------ *)
Definition taken_from (n : node) (dv : device) : Prop := in_range n /\ device_init n = Taken dv.
Definition recognised (dv : device) : Prop := exists n, taken_from n dv.
(* From start up on with the configuration files texts.  G is what the results of grabbing
   devices may be. *)
Inductive lives (fuel : nat) (wr : nat -> bool) (G : bool -> Prop) (texts : list str) : lstate -> Prop :=
| lives_start devs grabs ts l : Forall recognised devs -> (forall i, G (grabs i)) ->
    start fuel wr texts devs grabs ts = Ok l -> lives fuel wr G texts l
| lives_round r l l' : lives fuel wr G texts l ->
    Forall (fun x => recognised (fst x) /\ G (snd x)) (r_added r) ->
    Forall (fun x => forall i, G (snd x i)) (r_clients r) ->
    loop_round fuel wr r l = Ok l' -> lives fuel wr G texts l'.
(* the device, whatever has become of it, was found at the node *)
Definition found_at (n : node) (dv : device) : Prop :=
  exists dv0, taken_from n dv0 /\ dv_id dv = dv_id dv0 /\ dv_caps dv = dv_caps dv0 /\ dv_virtual dv = dv_virtual dv0
    /\ dv_axes dv = dv_axes dv0.

(* ---- C66: the configuration of a device ----------------------------------------------------- *)
(* a client asked for the files to be read again and was heard *)
Definition reloads (m : imsg) : bool :=
  match i_type m with IReload => (i_sz m <? 4096) && (i_timeout m <=? 1000000) | _ => false end.
(* the texts of the files read last; the calls of the handler are given newest first *)
Fixpoint loaded (texts : list str) (cs : list (dstate * event * Z * Z)) : list str :=
  match cs with
  | [] => texts
  | (_, EvClient _ m new _, _, _) :: r => if reloads m then new else loaded texts r
  | _ :: r => loaded texts r
  end.
(* the files that are accepted, last one first *)
Inductive accepted : list str -> list (str * config) -> Prop :=
| accepted_nil : accepted [] []
| accepted_yes t c ts fs : config_parse t = Ok (Some c) -> accepted ts fs -> accepted (t :: ts) (fs ++ [(t, c)])
| accepted_no t ts fs : config_parse t = Ok None -> accepted ts fs -> accepted (t :: ts) fs.
(* the rules in their ids sections *)
Definition file_rules (f : str * config) (rs : list rule) : Prop :=
  exists secs, sections_of (fst f) secs /\ rules (id_text secs) rs.
