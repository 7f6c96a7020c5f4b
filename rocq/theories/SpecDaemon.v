(* Specification vocabulary for the daemon (C42, C43, C45-C47, C51). *)
From Verif Require Import Base Types Keys Kbd Match Device Daemon.
Local Open Scope N_scope.

(* ---- C42: what the devices said ------------------------------------------------ *)
(* the raw key event, if this read delivered one; repeats (value 2) do not count *)
Definition raw_key (r : rd) : option (N * bool) :=
  match r with
  | REvent e => if (ie_type e =? 1) && negb (ie_value e =? 2)%Z then Some (ie_code e, negb (ie_value e =? 0)%Z) else None
  | _ => None
  end.
(* the last event of the key c was a press (oldest read first) *)
Definition down (rs : list rd) (c : N) : bool :=
  fold_left (fun h r => match raw_key r with Some (k, p) => if k =? c then p else h | None => h end) rs false.
(* backspace, escape and enter are down (evdev codes 14, 1, 28) *)
Definition panicked (rs : list rd) : bool := down rs 14 && down rs 1 && down rs 28.

(* the kernel reports key values 0, 1, 2; [led_free]: not an LED event whose number
   collides with one of the three keys *)
Definition sane_read (r : rd) : Prop :=
  match r with
  | REvent e =>
      (ie_type e = 1 -> ie_value e = 0%Z \/ ie_value e = 1%Z \/ ie_value e = 2%Z) /\
      (ie_type e = 17 -> ie_code e mod 256 <> 14 /\ ie_code e mod 256 <> 1 /\ ie_code e mod 256 <> 28)
  | _ => True
  end.

(* everything read from the devices, oldest first *)
Definition reads_of (l : lstate) : list rd := map snd (rev (lp_reads l)).

(* Everything that can happen from start up on.  A device that appears has no
   keyboard yet (device.c:186). *)
Definition unbound (dv : device) : Prop := dv_data dv = None.
Inductive runs (fuel : nat) (wr : nat -> bool) : lstate -> Prop :=
| runs_start texts devs grabs ts l : Forall unbound devs -> start fuel wr texts devs grabs ts = Ok l -> runs fuel wr l
| runs_round r l l' : runs fuel wr l -> Forall (fun x => unbound (fst x)) (r_added r) ->
    loop_round fuel wr r l = Ok l' -> runs fuel wr l'.

(* ---- C47: the keys held on the virtual keyboard ------------------------------------ *)
(* newest event first *)
Fixpoint vheld (out : list vev) (c : N) : bool :=
  match out with
  | [] => false
  | VKey k s :: r => if k =? c then s else vheld r c
  | _ :: r => vheld r c
  end.

(* ---- C46 ---------------------------------------------------------------------------- *)
(* The calls of the handler that run the engine: a timer, a key or wheel event of
   a device with a keyboard, a button or wheel of another mouse; the last two
   only if there is an active keyboard. *)
Definition runs_engine (d : dstate) (ev : event) : bool :=
  let active := match d_active d with Some _ => true | None => false end in
  match ev with
  | EvTimeout => active
  | EvDev i de =>
      match nth_error (d_devs d) i with
      | None => false
      | Some dv =>
          let keyish := match de_type de with
                        | DevKey => true
                        | DevScroll => match dv_data dv with
                                       | Some _ => negb ((de_x de =? 0)%Z && (de_y de =? 0)%Z)
                                       | None => true
                                       end
                        | _ => false end in
          match dv_data dv with
          | Some _ => keyish
          | None => negb (dv_virtual dv) && negb (N.land (dv_caps dv) CAP_MOUSE =? 0) && active && keyish
          end
      end
  | _ => false
  end.
(* when the engine last asked to be called back: the end of the delay returned by
   the last call that ran it *)
Fixpoint deadline (calls : list (dstate * event * Z * Z)) : option Z :=
  match calls with
  | [] => None
  | (d, ev, ts, t) :: r =>
      if runs_engine d ev then if (0 <? t)%Z then Some (ts + t)%Z else None else deadline r
  end.
(* Rounds one after the other in which handling takes no time: poll is entered
   again at the moment it was left.  [prompt fuel wr l now]: such a history led to
   l, its last round ended at time now. *)
Inductive prompt (fuel : nat) (wr : nat -> bool) : lstate -> Z -> Prop :=
| prompt_start texts devs grabs ts l : (0 <= ts)%Z -> start fuel wr texts devs grabs ts = Ok l -> prompt fuel wr l ts
| prompt_round r l l' now : prompt fuel wr l now -> r_start r = now -> (now <= r_stop r)%Z ->
    loop_round fuel wr r l = Ok l' -> prompt fuel wr l' (r_stop r).

(* ---- C51: pointers --------------------------------------------------------------- *)
(* the pointer leads to a keyboard of the present configurations *)
Definition live (d : dstate) (p : kptr) : Prop := fst p = d_gen d /\ (snd p < length (d_ents d))%nat.

(* ---- C43: scroll mode --------------------------------------------------------------- *)
Definition scroll_at (d : dstate) (p : kptr) : option scroll :=
  match deref d p with Ok k => Some (k_scroll k) | _ => None end.
Definition bound (d : dstate) (i : nat) (p : kptr) : Prop :=
  exists dv, nth_error (d_devs d) i = Some dv /\ dv_data dv = Some p.
(* The pointing device i of the keyboard p moves by each of ms, oldest first; out is
   what the motions made the daemon emit, newest first.  Anything may happen in
   between that leaves the scroll state and the binding of the device alone. *)
Inductive moved (fuel : nat) (wr : nat -> bool) (i : nat) (p : kptr) (d : dstate)
  : list (Z * Z) -> list vev -> dstate -> Prop :=
| mv_start : bound d i p -> moved fuel wr i p d [] [] d
| mv_move ms out d1 code pressed x y ts d2 t new : moved fuel wr i p d ms out d1 ->
    event_handler fuel wr (EvDev i (mkDe DevMove code pressed x y)) ts d1 = Ok (d2, t) ->
    d_out d2 = new ++ d_out d1 -> moved fuel wr i p d (ms ++ [(x, y)]) (new ++ out) d2
| mv_other ms out d1 d2 : moved fuel wr i p d ms out d1 -> scroll_at d2 p = scroll_at d1 p -> bound d2 i p ->
    moved fuel wr i p d ms out d2.
Definition sum (l : list Z) : Z := fold_right Z.add 0%Z l.

(* ---- C45: listeners ------------------------------------------------------------------ *)
(* the messages that arrived at con, oldest first *)
Fixpoint inbox (con : nat) (out : list vev) : list str :=
  match out with
  | [] => []
  | VMsg c text true :: r => if Nat.eqb c con then inbox con r ++ [text] else inbox con r
  | _ :: r => inbox con r
  end.
(* "/layout", "+layer", "-layer" *)
Definition announce (c : config) (o : oev) : list str :=
  match o with
  | OLayer i on _ => [(if is_layout (ltypei c i) then 47 else if on then 43 else 45) :: lname c i ++ [10]]
  | _ => []
  end.
(* What a listener is told on connection: the first active layout after main, else
   main; then every active layer. *)
Definition active_layer (k : kbd) (i : nat) : bool := negb (l_active (k_ls k i) =? 0).
Definition greeting (k : kbd) : str * list str :=
  let c := k_cfg k in
  let others := seq 1 (length (c_layers c) - 1) in
  let layouts := filter (fun i => active_layer k i && is_layout (ltypei c i)) others in
  (47 :: lname c (hd 0%nat layouts) ++ [10],
   map (fun i => 43 :: lname c i ++ [10]) (filter (fun i => active_layer k i && negb (is_layout (ltypei c i))) others)).

(* d' is a later state of the daemon, all calls of the handler in between being ok *)
Inductive later (fuel : nat) (wr : nat -> bool) (ok : event -> Prop) (d : dstate) : dstate -> Prop :=
| la_now : later fuel wr ok d d
| la_call d1 ev ts d2 t : later fuel wr ok d d1 -> ok ev -> event_handler fuel wr ev ts d1 = Ok (d2, t) -> later fuel wr ok d d2
| la_devices d1 v : later fuel wr ok d d1 -> later fuel wr ok d (set_d_devs v d1).
(* no reload, and con is not added (again); optionally no bind *)
Definition connected (con : nat) (ev : event) : Prop :=
  match ev with
  | EvClient c m _ _ => match i_type m with IListen => c <> con | IReload => False | _ => True end
  | _ => True
  end.
Definition unbinding (ev : event) : Prop :=
  match ev with EvClient _ m _ _ => i_type m <> IBind | _ => True end.

(* Effects of the engines, oldest first, each with the place of its keyboard. *)
Definition effects (j : nat) (log : list (nat * oev)) : list oev := map snd (filter (fun x => Nat.eqb (fst x) j) log).
Definition texts_of (ks : list kbd) (log : list (nat * oev)) : list str :=
  flat_map (fun x => match nth_error ks (fst x) with Some k => announce (k_cfg k) (snd x) | None => [] end) log.
(* every layer name has at most 63 characters *)
Definition short_names (ks : list kbd) : Prop := forall k i, In k ks -> (length (lname (k_cfg k) i) <= 63)%nat.
(* the layers are told apart by their names *)
Definition sole (c : config) (i : nat) : Prop := forall j, j <> i -> lname c j <> lname c i.
(* number of copies of a message *)
Definition copies (text : str) (box : list str) : nat := count_occ (list_eq_dec N.eq_dec) box text.
Definition plus_msg (c : config) (i : nat) : str := 43 :: lname c i ++ [10].
Definition minus_msg (c : config) (i : nat) : str := 45 :: lname c i ++ [10].
