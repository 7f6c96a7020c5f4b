(* The daemon (daemon.c) and its main loop (evloop.c).  No proofs in this file.

   What the environment decides is a parameter: the results of read(2) on the
   devices, the moments poll(2) is entered and left, whether a write to a
   listener succeeds, whether a grab succeeds, the contents of the configuration
   files and the messages of clients.  Writes to the virtual keyboard and the
   replies to clients (xwrite) are taken to succeed: on failure the process
   exits (util.c:3-16). *)
From Coq Require Import String.
From Verif Require Import Base Types Keys MacroExec Kbd Str MacroParse Config Match Device.
Local Open Scope N_scope.
Local Open Scope list_scope.
Local Notation length := List.length.

(* What the daemon does, newest first in the trace. *)
Inductive vev :=
| VKey (code : N) (state : bool)          (* vkbd_send_key *)
| VScroll (x y : Z)                       (* vkbd_mouse_scroll *)
| VMove (x y : Z)                         (* vkbd_mouse_move *)
| VMoveAbs (x y : Z)                      (* vkbd_mouse_move_abs *)
| VLed (dev : nat) (led : N) (state : N)  (* device_set_led *)
| VMsg (con : nat) (text : str) (ok : bool) (* a message to a listener; did it arrive *)
| VReply (con : nat) (success : bool)     (* send_success, send_fail *)
| VClose (con : nat)                      (* close of a listener *)
| VCmd (cmd : str)                        (* execute_command *)
| VSleep (us : N).                        (* usleep *)

(* A pointer to a keyboard: the number of the load_configs call that allocated
   it and its place in the list of that load.  A pointer into an earlier
   load is dangling (free_configs). *)
Definition kptr : Type := (nat * nat)%type.
Definition kptr_eqb (a b : kptr) : bool := Nat.eqb (fst a) (fst b) && Nat.eqb (snd a) (snd b).

(* device.h:17-40 (struct device) as far as the daemon uses it.  fd and path
   are left out; dv_open is fd != -1. *)
Record device := mkDev {
  dv_open : bool;
  dv_grabbed : bool;
  dv_caps : N;
  dv_virtual : bool;
  dv_id : str;
  dv_axes : axes;
  dv_data : option kptr
}.
Definition set_dv_open (v : bool) (d : device) : device :=
  mkDev v (dv_grabbed d) (dv_caps d) (dv_virtual d) (dv_id d) (dv_axes d) (dv_data d).
Definition set_dv_bound (g : bool) (p : option kptr) (d : device) : device :=
  mkDev (dv_open d) g (dv_caps d) (dv_virtual d) (dv_id d) (dv_axes d) p.

(* daemon.c:9-17 (the static variables), the static clock of keyboard.c:15-20,
   and event_handler's last_time and timeout (daemon.c:479-480).  The
   configuration of an entry is that of its keyboard: kbd_eval changes
   kbd->config only, ent->config is the original one. *)
Record dstate := mkD {
  d_gen : nat;                 (* number of load_configs calls *)
  d_ents : list kbd;           (* configs *)
  d_ks : N -> bool;            (* keystate *)
  d_active : option kptr;      (* active_kbd *)
  d_devs : list device;        (* device_table *)
  d_lst : list nat;            (* listeners *)
  d_last : Z;                  (* last_time *)
  d_timeout : Z;               (* timeout *)
  d_clock : Z;                 (* get_time *)
  d_nw : nat;                  (* number of writes to listeners so far *)
  d_out : list vev
}.
Definition set_d_gen v d := mkD v (d_ents d) (d_ks d) (d_active d) (d_devs d) (d_lst d) (d_last d) (d_timeout d) (d_clock d) (d_nw d) (d_out d).
Definition set_d_ents v d := mkD (d_gen d) v (d_ks d) (d_active d) (d_devs d) (d_lst d) (d_last d) (d_timeout d) (d_clock d) (d_nw d) (d_out d).
Definition set_d_ks v d := mkD (d_gen d) (d_ents d) v (d_active d) (d_devs d) (d_lst d) (d_last d) (d_timeout d) (d_clock d) (d_nw d) (d_out d).
Definition set_d_active v d := mkD (d_gen d) (d_ents d) (d_ks d) v (d_devs d) (d_lst d) (d_last d) (d_timeout d) (d_clock d) (d_nw d) (d_out d).
Definition set_d_devs v d := mkD (d_gen d) (d_ents d) (d_ks d) (d_active d) v (d_lst d) (d_last d) (d_timeout d) (d_clock d) (d_nw d) (d_out d).
Definition set_d_lst v d := mkD (d_gen d) (d_ents d) (d_ks d) (d_active d) (d_devs d) v (d_last d) (d_timeout d) (d_clock d) (d_nw d) (d_out d).
Definition set_d_times l t d := mkD (d_gen d) (d_ents d) (d_ks d) (d_active d) (d_devs d) (d_lst d) l t (d_clock d) (d_nw d) (d_out d).
Definition set_d_clock v d := mkD (d_gen d) (d_ents d) (d_ks d) (d_active d) (d_devs d) (d_lst d) (d_last d) (d_timeout d) v (d_nw d) (d_out d).
Definition set_d_nw v d := mkD (d_gen d) (d_ents d) (d_ks d) (d_active d) (d_devs d) (d_lst d) (d_last d) (d_timeout d) (d_clock d) v (d_out d).
Definition set_d_out v d := mkD (d_gen d) (d_ents d) (d_ks d) (d_active d) (d_devs d) (d_lst d) (d_last d) (d_timeout d) (d_clock d) (d_nw d) v.
Definition vemit (v : vev) (d : dstate) : dstate := set_d_out (v :: d_out d) d.

(* the zeroed static variables; get_time starts at 1 *)
Definition d_init (devs : list device) : dstate :=
  mkD 0 [] (fun _ => false) None devs [] 0 0 1 0 [].

(* daemon.c:38-47 (clear_vkbd) *)
Definition clear_key (d : dstate) (i : nat) : dstate :=
  let c := N.of_nat i in
  if d_ks d c then set_d_ks (fupd (d_ks d) c false) (vemit (VKey c false) d) else d.
Definition clear_vkbd (d : dstate) : dstate := fold_left clear_key (seq 0 256) d.

(* daemon.c:49-74 (send_key); the parameter is a uint8_t *)
Definition dsend_key (code8 : N) (state : bool) (d : dstate) : dstate :=
  let code := code8 mod 256 in
  let d1 := set_d_ks (fupd (d_ks d) code state) d in
  if code =? K_SCROLL_DOWN then if state then vemit (VScroll 0 (-1)) d1 else d1
  else if code =? K_SCROLL_UP then if state then vemit (VScroll 0 1) d1 else d1
  else if code =? K_SCROLL_RIGHT then if state then vemit (VScroll 1 0) d1 else d1
  else if code =? K_SCROLL_LEFT then if state then vemit (VScroll (-1) 0) d1 else d1
  else vemit (VKey code state) d1.

(* A write to a listener; [wr n] is whether the n-th such write of the process
   succeeds in full. *)
Definition write_msg (wr : nat -> bool) (con : nat) (text : str) (d : dstate) : dstate * bool :=
  let ok := wr (d_nw d) in
  (set_d_nw (S (d_nw d)) (vemit (VMsg con text ok) d), ok).

(* The keyboard behind a pointer; reading freed memory is undefined. *)
Definition deref (d : dstate) (p : kptr) : res kbd :=
  if Nat.eqb (fst p) (d_gen d) then
    match nth_error (d_ents d) (snd p) with Some k => Ok k | None => UB end
  else UB.
Definition store (p : kptr) (k : kbd) (d : dstate) : dstate := set_d_ents (upd (snd p) k (d_ents d)) d.

(* the name of layer i *)
Definition lname (c : config) (i : nat) : str := ly_name (nth i (c_layers c) zero_layer).
Definition ltypei (c : config) (i : nat) : ltype := ly_type (nth i (c_layers c) zero_layer).

Definition MAX_LISTENERS : nat := 32.

(* daemon.c:98-110: the active layout, layer 0 if no other layout is active *)
Definition current_layout (k : kbd) : nat :=
  match find (fun i => negb (l_active (k_ls k i) =? 0) && is_layout (ltypei (k_cfg k) i))
             (seq 1 (length (c_layers (k_cfg k)) - 1)) with
  | Some i => i
  | None => 0%nat
  end.

(* daemon.c:114-125: one message per active layer that is not a layout; stops
   (false) at the first failure *)
Fixpoint send_layers (wr : nat -> bool) (con : nat) (k : kbd) (is : list nat) (d : dstate) : dstate * bool :=
  match is with
  | [] => (d, true)
  | i :: r =>
      if negb (l_active (k_ls k i) =? 0) && negb (is_layout (ltypei (k_cfg k) i)) then
        let '(d1, ok) := write_msg wr con (43 :: lname (k_cfg k) i ++ [10]) d in
        if ok then send_layers wr con k r d1 else (d1, false)
      else send_layers wr con k r d
  end.

(* daemon.c:76-133 (add_listener).  The result of the first dprintf is ignored. *)
Definition add_listener (wr : nat -> bool) (con : nat) (d : dstate) : res dstate :=
  if Nat.eqb (length (d_lst d)) MAX_LISTENERS then
    Ok (vemit (VClose con) (vemit (VMsg con (bs "Max listeners exceeded"%string ++ [10; 0]) true) d))
  else
    match d_active d with
    | None => Ok (set_d_lst (d_lst d ++ [con]) d)
    | Some p =>
        k <- deref d p ;;
        let '(d1, _) := write_msg wr con (47 :: lname (k_cfg k) (current_layout k) ++ [10]) d in
        let '(d2, ok) := send_layers wr con k (seq 1 (length (c_layers (k_cfg k)) - 1)) d1 in
        Ok (if ok then set_d_lst (d_lst d2 ++ [con]) d2 else vemit (VClose con) d2)
    end.

(* snprintf into a buffer of size sz followed by write of the returned length:
   a text that fills the buffer is cut and its last byte is NUL; a longer one
   would read beyond the buffer *)
Definition buf_text (sz : nat) (s : str) : res str :=
  if Nat.ltb (length s) sz then Ok s
  else if Nat.eqb (length s) sz then Ok (firstn (sz - 1) s ++ [0])
  else UB.

(* daemon.c:166-178: write to every listener, keep those that took it *)
Fixpoint notify (wr : nat -> bool) (text : str) (ls : list nat) (keep : list nat) (d : dstate) : dstate :=
  match ls with
  | [] => set_d_lst keep d
  | c :: r =>
      let '(d1, ok) := write_msg wr c text d in
      if ok then notify wr text r (keep ++ [c]) d1 else notify wr text r keep (vemit (VClose c) d1)
  end.

(* daemon.c:144-156: the LED of every device of this keyboard *)
Fixpoint set_leds (p : kptr) (ind : bool) (devs : list device) (i : nat) (d : dstate) : dstate :=
  match devs with
  | [] => d
  | dv :: r =>
      set_leds p ind r (S i)
        (match dv_data dv with
         | Some q => if kptr_eqb q p then vemit (VLed i 1 (if ind then 1 else 0)) d else d
         | None => d
         end)
  end.

(* daemon.c:135-179 (on_layer_change); MAX_LAYER_NAME_LEN + 2 = 66 *)
Definition on_layer_change (wr : nat -> bool) (p : kptr) (c : config) (i : nat) (on ind : bool) (d : dstate)
  : res dstate :=
  let d1 := if c_indicator c then set_leds p ind (d_devs d) 0 d else d in
  match d_lst d1 with
  | [] => Ok d1
  | ls =>
      let ch := if is_layout (ltypei c i) then 47 else if on then 43 else 45 in
      text <- buf_text 66 (ch :: lname c i ++ [10]) ;;
      Ok (notify wr text ls [] d1)
  end.

(* The effects of the engine (struct output and execute_command, usleep) as the
   daemon carries them out. *)
Definition deliver (wr : nat -> bool) (p : kptr) (c : config) (d : dstate) (o : oev) : res dstate :=
  match o with
  | OKey code state => Ok (dsend_key code state d)
  | OLayer i on ind => on_layer_change wr p c i on ind d
  | OCmd s => Ok (vemit (VCmd s) d)
  | OSleep us => Ok (vemit (VSleep us) d)
  end.
Fixpoint deliver_all (wr : nat -> bool) (p : kptr) (c : config) (os : list oev) (d : dstate) : res dstate :=
  match os with
  | [] => Ok d
  | o :: r => d1 <- deliver wr p c d o ;; deliver_all wr p c r d1
  end.

(* One call of kbd_process_events with one event on the keyboard p.  The clock
   is shared between keyboards; the effects of the call are those by which the
   engine's trace has grown. *)
Definition run_kbd (fuel : nat) (wr : nat -> bool) (p : kptr) (ev : kev) (d : dstate) : res (dstate * Z) :=
  k <- deref d p ;;
  '(k1, t) <- kbd_process_events fuel (set_k_clock (d_clock d) k) [ev] ;;
  let new := firstn (length (k_out k1) - length (k_out k)) (k_out k1) in
  d1 <- deliver_all wr p (k_cfg k1) (rev new) (set_d_clock (k_clock k1) d) ;;
  Ok (store p k1 d1, t).

(* daemon.c:463-475 (process_keypress) *)
Definition process_keypress (fuel : nat) (wr : nat -> bool) (p : kptr) (code : N) (ts : Z) (d : dstate)
  : res (dstate * Z) :=
  '(d1, _) <- run_kbd fuel wr p (mkKev code true ts) d ;;
  run_kbd fuel wr p (mkKev code false ts) d1.

(* daemon.c:537-552: n key presses; the delay returned by the last one *)
Fixpoint keypresses (fuel : nat) (wr : nat -> bool) (p : kptr) (code : N) (ts : Z) (n : nat) (tmo : Z) (d : dstate)
  : res (dstate * Z) :=
  match n with
  | O => Ok (d, tmo)
  | S n' =>
      '(d1, t) <- process_keypress fuel wr p code ts d ;;
      keypresses fuel wr p code ts n' t d1
  end.

(* ---- configurations and devices ------------------------------------------- *)
(* daemon.c:181-225 (load_configs), from the texts of the *.conf files in the
   order readdir delivers them *)
Fixpoint load_files (texts : list str) (clock : Z) (acc : list kbd) : res (list kbd) :=
  match texts with
  | [] => Ok acc
  | t :: r =>
      c <- config_parse t ;;
      load_files r clock (match c with Some c => new_keyboard c clock :: acc | None => acc end)
  end.

(* daemon.c:251-280 (manage_device); [grab] is whether EVIOCGRAB succeeds.
   Ungrabbing is taken to succeed. *)
Definition manage_device (d : dstate) (grab : bool) (dv : device) : device :=
  if dv_virtual dv then dv
  else
    match lookup_config_ent (map k_orig (d_ents d)) (dv_id dv) (device_flags (dv_caps dv)) with
    | Some i =>
        if dv_grabbed dv || grab then set_dv_bound true (Some (d_gen d, i)) dv
        else set_dv_bound false None dv
    | None => set_dv_bound false None dv
    end.
Fixpoint manage_all (d : dstate) (grabs : nat -> bool) (i : nat) (devs : list device) : list device :=
  match devs with
  | [] => []
  | dv :: r => manage_device d (grabs i) dv :: manage_all d grabs (S i) r
  end.

(* daemon.c:282-293 (reload).  active_kbd is left alone. *)
Definition reload (texts : list str) (grabs : nat -> bool) (d : dstate) : res dstate :=
  ents <- load_files texts (d_clock d) [] ;;
  let d1 := set_d_ents ents (set_d_gen (S (d_gen d)) d) in
  Ok (clear_vkbd (set_d_devs (manage_all d1 grabs 0 (d_devs d1)) d1)).

(* ---- clients ------------------------------------------------------------- *)
(* press and release *)
Definition tap (c : N) (d : dstate) : dstate := vemit (VKey c false) (vemit (VKey c true) d).

(* daemon.c:331-377: one character; false when there is no way to type it *)
Definition input_char (csz : nat) (cp : N) (d : dstate) : dstate * bool :=
  let simple :=
    if Nat.eqb csz 1 then
      match parse_key_sequence (if cp =? 0 then [] else [cp]) with
      | Some (code, mods) =>
          Some (if negb (N.land mods MOD_SHIFT =? 0)
                then vemit (VKey K_LEFTSHIFT false) (tap code (vemit (VKey K_LEFTSHIFT true) d))
                else tap code d)
      | None =>
          if cp =? 32 then Some (tap K_SPACE d)
          else if cp =? 10 then Some (tap K_ENTER d)
          else if cp =? 9 then Some (tap K_TAB d)
          else None
      end
    else None in
  match simple with
  | Some d' => (d', true)
  | None =>
      match unicode_lookup_index cp with
      | None => (d, false)
      | Some i => (fold_left (fun d c => tap c d) (unicode_get_sequence i) d, true)
      end
  end.

(* daemon.c:322-385 (input); fuel: the length of the text suffices *)
Fixpoint input (fuel : nat) (buf : str) (timeout : N) (d : dstate) : res (dstate * bool) :=
  match fuel with
  | O => NoFuel
  | S f =>
      '(csz, cp) <- utf8_read_char buf ;;
      match csz with
      | O => Ok (d, true)
      | _ =>
          let '(d1, ok) := input_char csz cp d in
          if ok then
            input f (skipn csz buf) timeout
                  (if timeout =? 0 then d1 else vemit (VSleep timeout) d1)
          else Ok (d1, false)
      end
  end.

(* keyd.h:73-89 (struct ipc_message): type, timeout, data, sz.  The socket is
   taken to deliver a whole message (xread). *)
Inductive itype := IBind | IInput | IMacro | IReload | IListen | IOther.
Record imsg := mkMsg { i_type : itype; i_timeout : N; i_data : list N; i_sz : N }.

(* the C string in an array of bytes *)
Fixpoint cstr (l : list N) : str :=
  match l with
  | [] => []
  | x :: r => if x =? 0 then [] else x :: cstr r
  end.

(* daemon.c:410-411: drop trailing newlines *)
Fixpoint chop (n : nat) (l : list N) : list N :=
  match n with
  | O => l
  | S n' => if nth n' l 0 =? 10 then chop n' (upd n' 0 l) else l
  end.

(* daemon.c:445-448: the bind expression on every keyboard; did one succeed *)
Fixpoint eval_all (ks : list kbd) (exp : str) : res (list kbd * bool) :=
  match ks with
  | [] => Ok ([], false)
  | k :: r =>
      '(k1, ok) <- kbd_eval k exp ;;
      '(r1, ok') <- eval_all r exp ;;
      Ok (k1 :: r1, ok || ok')
  end.

(* the effects of macro_execute on send_key *)
Fixpoint play (os : list oev) (d : dstate) : dstate :=
  match os with
  | [] => d
  | OKey c s :: r => play r (dsend_key c s d)
  | OSleep us :: r => play r (vemit (VSleep us) d)
  | _ :: r => play r d
  end.

(* daemon.c:387-461 (handle_client); the data field has 4096 bytes *)
Definition handle_client (wr : nat -> bool) (con : nat) (m : imsg) (texts : list str) (grabs : nat -> bool)
           (d : dstate) : res dstate :=
  if 4096 <=? i_sz m then Ok (vemit (VReply con false) d)
  else
    let data := upd (N.to_nat (i_sz m)) 0 (i_data m) in
    if 1000000 <? i_timeout m then Ok (vemit (VReply con false) d)
    else
      match i_type m with
      | IMacro =>
          r <- macro_parse (cstr (chop (N.to_nat (i_sz m)) data)) ;;
          match r with
          | None => Ok (vemit (VReply con false) d)
          | Some mac => Ok (vemit (VReply con true) (play (macro_execute mac (Z.of_N (i_timeout m))) d))
          end
      | IInput =>
          '(d1, ok) <- input (S (length (cstr data))) (cstr data) (i_timeout m) d ;;
          Ok (vemit (VReply con ok) d1)
      | IReload => d1 <- reload texts grabs d ;; Ok (vemit (VReply con true) d1)
      | IListen => add_listener wr con d
      | IBind =>
          '(ks, ok) <- eval_all (d_ents d) (cstr data) ;;
          Ok (vemit (VReply con ok) (set_d_ents ks d))
      | IOther => Ok (vemit (VReply con false) d)
      end.

(* ---- daemon.c:477-597 (event_handler) --------------------------------------- *)
(* keyd.h:56-71 (struct event) *)
Inductive event :=
| EvTimeout
| EvDev (dev : nat) (de : devev)
| EvAdd (dev : nat) (grab : bool)
| EvRemove (dev : nat)
| EvClient (con : nat) (m : imsg) (texts : list str) (grabs : nat -> bool).

(* an int result *)
Definition int_ok (z : Z) : bool := ((-2147483648 <=? z) && (z <=? 2147483647))%Z.

(* daemon.c:513-533 (DEV_MOUSE_MOVE).  / and % truncate; the emitted ticks and the
   new accumulators. *)
Definition scroll_move (s : scroll) (x y : Z) : res (scroll * list vev) :=
  if (s_sens s =? 0)%Z then Ok (s, [])
  else
    let y1 := (s_y s + y)%Z in
    let x1 := (s_x s + x)%Z in
    if int_ok y1 && int_ok x1 && int_ok (Z.quot y1 (s_sens s)) && int_ok (-1 * Z.quot y1 (s_sens s))
       && int_ok (Z.quot x1 (s_sens s)) then
      Ok (mkScroll (Z.rem x1 (s_sens s)) (Z.rem y1 (s_sens s)) (s_sens s) (s_active s),
          [VScroll 0 (-1 * Z.quot y1 (s_sens s)); VScroll 0 (Z.quot x1 (s_sens s))])
    else UB.

(* daemon.c:498-573 (EV_DEV_EVENT): the new timeout is None if it is left alone *)
Definition device_event (fuel : nat) (wr : nat -> bool) (i : nat) (de : devev) (ts : Z) (d : dstate)
  : res (dstate * option Z) :=
  match nth_error (d_devs d) i with
  | None => UB
  | Some dv =>
      match dv_data dv with
      | Some p =>
          let d := set_d_active (Some p) d in
          match de_type de with
          | DevKey =>
              '(d1, t) <- run_kbd fuel wr p (mkKev (de_code de) (negb (de_pressed de =? 0)) ts) d ;;
              Ok (d1, Some t)
          | DevMove =>
              k <- deref d p ;;
              if s_active (k_scroll k) then
                '(s, vs) <- scroll_move (k_scroll k) (de_x de) (de_y de) ;;
                Ok (fold_left (fun d v => vemit v d) vs (store p (set_k_scroll s k) d), None)
              else Ok (vemit (VMove (de_x de) (de_y de)) d, None)
          | DevMoveAbs => Ok (vemit (VMoveAbs (de_x de) (de_y de)) d, None)
          | DevScroll =>
              let n x := Z.to_nat (Z.abs x) in
              '(d1, t1) <- (if (de_x de =? 0)%Z then Ok (d, d_timeout d)
                            else keypresses fuel wr p (if (0 <? de_x de)%Z then K_SCROLL_RIGHT else K_SCROLL_LEFT)
                                            ts (n (de_x de)) (d_timeout d) d) ;;
              '(d2, t2) <- (if (de_y de =? 0)%Z then Ok (d1, t1)
                            else keypresses fuel wr p (if (0 <? de_y de)%Z then K_SCROLL_UP else K_SCROLL_DOWN)
                                            ts (n (de_y de)) t1 d1) ;;
              Ok (d2, Some t2)
          | _ => Ok (d, None)
          end
      | None =>
          if negb (dv_virtual dv) && negb (N.land (dv_caps dv) CAP_MOUSE =? 0) then
            match d_active d, de_type de with
            | Some p, (DevKey | DevScroll) =>
                '(d1, t) <- process_keypress fuel wr p K_EXTERNAL_MOUSE ts d ;;
                Ok (d1, Some t)
            | _, _ => Ok (d, None)
            end
          else if dv_virtual dv then
            match de_type de with
            | DevLed =>
                Ok (fold_left (fun d '(j, dv) =>
                      match dv_data dv with
                      | Some _ => vemit (VLed j (de_code de) (de_pressed de)) d
                      | None => d
                      end) (combine (seq 0 (length (d_devs d))) (d_devs d)) d, None)
            | _ => Ok (d, None)
            end
          else Ok (d, None)
      end
  end.

(* The whole handler: the new state and the value returned to the loop.
   Arithmetic on time stamps is in Z (int in the code). *)
Definition event_handler (fuel : nat) (wr : nat -> bool) (ev : event) (ts : Z) (d : dstate) : res (dstate * Z) :=
  let t0 := Z.max 0 (d_timeout d - (ts - d_last d)) in
  let d := set_d_times ts t0 d in
  let keep r := d' <- r ;; Ok (set_d_times ts t0 d', t0) in
  match ev with
  | EvTimeout =>
      match d_active d with
      | None => Ok (d, 0%Z)
      | Some p =>
          '(d1, t) <- run_kbd fuel wr p (mkKev 0 false ts) d ;;
          Ok (set_d_times ts t d1, t)
      end
  | EvDev i de =>
      '(d1, r) <- device_event fuel wr i de ts d ;;
      let t := match r with Some t => t | None => t0 end in
      Ok (set_d_times ts t d1, t)
  | EvAdd i grab =>
      match nth_error (d_devs d) i with
      | None => UB
      | Some dv => keep (Ok (set_d_devs (upd i (manage_device d grab dv) (d_devs d)) d))
      end
  | EvRemove i => keep (Ok d)
  | EvClient con m texts grabs => keep (handle_client wr con m texts grabs d)
  end.

(* ---- evloop.c ----------------------------------------------------------------- *)
(* evloop.c:11-28 (panic_check): enter, backspace, escape; None when the process
   stops *)
Record panic := mkPanic { pn_enter : N; pn_backspace : N; pn_escape : N }.
Definition panic_check (s : panic) (code pressed : N) : panic * bool :=
  let s' := if code =? K_ENTER then mkPanic pressed (pn_backspace s) (pn_escape s)
            else if code =? K_BACKSPACE then mkPanic (pn_enter s) pressed (pn_escape s)
            else if code =? K_ESC then mkPanic (pn_enter s) (pn_backspace s) pressed
            else s in
  (s', negb (pn_backspace s' =? 0) && negb (pn_enter s' =? 0) && negb (pn_escape s' =? 0)).

(* The state of the loop: the daemon, the loop's timeout, the static variables of
   device_read_event and panic_check, whether the panic sequence was seen, and
   two records of what happened (newest first): the results of read(2) and the
   calls of the handler (daemon before the call, event, time stamp, returned
   value). *)
Record lstate := mkL {
  lp_d : dstate;
  lp_timeout : Z;
  lp_de : devev;
  lp_panic : panic;
  lp_dead : bool;
  lp_reads : list (nat * rd);
  lp_calls : list (dstate * event * Z * Z)
}.

(* a call of the handler from the loop *)
Definition call (fuel : nat) (wr : nat -> bool) (ev : event) (ts : Z) (l : lstate) : res lstate :=
  '(d, t) <- event_handler fuel wr ev ts (lp_d l) ;;
  Ok (mkL d t (lp_de l) (lp_panic l) (lp_dead l) (lp_reads l) ((lp_d l, ev, ts, t) :: lp_calls l)).

(* evloop.c:94-114: read from device i until nothing is left or the device is
   gone.  [rs] is what successive reads would deliver; the list running out
   counts as EAGAIN. *)
Fixpoint read_device (fuel : nat) (wr : nat -> bool) (i : nat) (rs : list rd) (ts : Z) (l : lstate) : res lstate :=
  match rs with
  | [] => Ok l
  | r :: rs' =>
      match nth_error (d_devs (lp_d l)) i with
      | None => UB
      | Some dv =>
          '(de, ret) <- device_read_event (dv_axes dv) (lp_de l) r ;;
          let dv1 := match r with RError => set_dv_open false dv | _ => dv end in
          let l1 := mkL (set_d_devs (upd i dv1 (d_devs (lp_d l))) (lp_d l)) (lp_timeout l) de (lp_panic l)
                        (lp_dead l) ((i, r) :: lp_reads l) (lp_calls l) in
          if negb ret then Ok l1
          else
            match de_type de with
            | DevRemoved =>
                l2 <- call fuel wr (EvRemove i) ts l1 ;;
                let ds := d_devs (lp_d l2) in
                Ok (mkL (set_d_devs (upd i (set_dv_open false (nth i ds dv1)) ds) (lp_d l2)) (lp_timeout l2)
                        (lp_de l2) (lp_panic l2) (lp_dead l2) (lp_reads l2) (lp_calls l2))
            | _ =>
                let '(s, die) := panic_check (lp_panic l1) (de_code de) (de_pressed de) in
                let l2 := mkL (lp_d l1) (lp_timeout l1) (lp_de l1) s (lp_dead l1 || die) (lp_reads l1) (lp_calls l1) in
                if die then Ok l2
                else l3 <- call fuel wr (EvDev i de) ts l2 ;; read_device fuel wr i rs' ts l3
            end
      end
  end.

(* evloop.c:90-116: the devices in turn; [reads i] is what device i delivers.  A
   dead process does nothing more. *)
Fixpoint read_devices (fuel : nat) (wr : nat -> bool) (reads : nat -> list rd) (is : list nat) (ts : Z) (l : lstate)
  : res lstate :=
  match is with
  | [] => Ok l
  | i :: r =>
      if lp_dead l then Ok l
      else l1 <- read_device fuel wr i (reads i) ts l ;; read_devices fuel wr reads r ts l1
  end.

Fixpoint calls (fuel : nat) (wr : nat -> bool) (evs : list event) (ts : Z) (l : lstate) : res lstate :=
  match evs with
  | [] => Ok l
  | e :: r => l1 <- call fuel wr e ts l ;; calls fuel wr r ts l1
  end.

(* evloop.c:130-142: a device that appeared is added at the end of the table *)
Fixpoint add_devices (fuel : nat) (wr : nat -> bool) (devs : list (device * bool)) (ts : Z) (l : lstate) : res lstate :=
  match devs with
  | [] => Ok l
  | (dv, grab) :: r =>
      let d := lp_d l in
      let n := length (d_devs d) in
      if Nat.ltb n 64 then
        l1 <- call fuel wr (EvAdd n grab) ts
                (mkL (set_d_devs (d_devs d ++ [dv]) d) (lp_timeout l) (lp_de l) (lp_panic l) (lp_dead l)
                     (lp_reads l) (lp_calls l)) ;;
        add_devices fuel wr r ts l1
      else Crash CDevices
  end.

(* What the outside world does during one round of the loop: when poll is
   entered and left, what the devices deliver, the clients' messages (the only
   auxiliary descriptor of the daemon is the socket; a reload message comes with
   the configuration files and the results of the grabs), the devices that
   appear. *)
Record round := mkRound {
  r_start : Z;
  r_stop : Z;
  r_reads : nat -> list rd;
  r_clients : list (nat * imsg * list str * (nat -> bool));
  r_added : list (device * bool)
}.

(* evloop.c:57-153: one round of the loop *)
Definition loop_round (fuel : nat) (wr : nat -> bool) (r : round) (l : lstate) : res lstate :=
  if lp_dead l then Ok l
  else
    let ts := r_stop r in
    let elapsed := (ts - r_start r)%Z in
    l1 <- (if ((0 <? lp_timeout l) && (lp_timeout l <=? elapsed))%Z
           then call fuel wr EvTimeout ts l
           else Ok (mkL (lp_d l) (lp_timeout l - elapsed) (lp_de l) (lp_panic l) (lp_dead l) (lp_reads l) (lp_calls l))) ;;
    l2 <- read_devices fuel wr (r_reads r) (seq 0 (length (d_devs (lp_d l1)))) ts l1 ;;
    if lp_dead l2 then Ok l2
    else
      l3 <- calls fuel wr (map (fun '(con, m, texts, grabs) => EvClient con m texts grabs) (r_clients r)) ts l2 ;;
      l4 <- add_devices fuel wr (r_added r) ts l3 ;;
      let d := lp_d l4 in
      Ok (mkL (set_d_devs (filter dv_open (d_devs d)) d) (lp_timeout l4) (lp_de l4) (lp_panic l4) (lp_dead l4)
              (lp_reads l4) (lp_calls l4)).

Fixpoint loop (fuel : nat) (wr : nat -> bool) (rs : list round) (l : lstate) : res lstate :=
  match rs with
  | [] => Ok l
  | r :: rest => l1 <- loop_round fuel wr r l ;; loop fuel wr rest l1
  end.

(* daemon.c:599-625 (run_daemon) and evloop.c:47-55: the configurations are
   loaded, the devices found at start are added, then the loop runs.  The time
   stamp of the first EV_DEV_ADD events is an uninitialised variable in C; the
   model takes it as a parameter. *)
Definition start (fuel : nat) (wr : nat -> bool) (texts : list str) (devs : list device) (grabs : nat -> bool) (ts : Z)
  : res lstate :=
  d <- reload texts grabs (d_init []) ;;
  let l := mkL (set_d_devs devs d) 0 zero_de (mkPanic 0 0 0) false [] [] in
  l1 <- calls fuel wr (map (fun i => EvAdd i (grabs i)) (seq 0 (length devs))) ts l ;;
  Ok (mkL (lp_d l1) 0 (lp_de l1) (lp_panic l1) (lp_dead l1) (lp_reads l1) (lp_calls l1)).
