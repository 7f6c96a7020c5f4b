(* keyboard.c, function by function.  No proofs in this file. *)
From Verif Require Import Base Keys Types MacroExec.
Local Open Scope N_scope.

Definition CACHE_SIZE : nat := 16.       (* keyboard.h:16 *)
Definition MAX_LAYERS : nat := 32.       (* config.h:15 *)
Definition MAX_MACROS : nat := 256.      (* config.h:117 *)
Definition MAX_COMMANDS : nat := 64.     (* config.h:118 *)
Definition MAX_TIMEOUTS : nat := 64.     (* keyboard.h:70 *)
Definition MAX_QUEUE : nat := 32.        (* keyboard.h:80,110 *)

(* ---- array accesses ----------------------------------------------------- *)
(* &config.layers[i]: entries at or beyond nr_layers are zeroed.  Indices
   beyond the array are caught where they are first used ([chk_layer]). *)
Definition layer_at (k : kbd) (i : nat) : layer := nth i (c_layers (k_cfg k)) zero_layer.
Definition nlayers (k : kbd) : nat := length (c_layers (k_cfg k)).
Definition chk_layer (i : nat) : res unit := if Nat.ltb i MAX_LAYERS then Ok tt else UB.

(* &config.macros[i], &config.commands[i], config.descriptors[i]: entries beyond
   the count are taken to be zeroed (they are, except for left-overs of a failed
   parse); beyond the array: UB. *)
Definition macro_at (k : kbd) (i : nat) : res macro :=
  if Nat.ltb i MAX_MACROS then Ok (nth i (c_macros (k_cfg k)) []) else UB.
Definition cmd_at (k : kbd) (i : nat) : res str :=
  if Nat.ltb i MAX_COMMANDS then Ok (nth i (c_cmds (k_cfg k)) []) else UB.
(* config.h:116: descriptors[1024] *)
Definition desc_at (k : kbd) (i : nat) : res desc :=
  if N.ltb (N.of_nat i) 1024 then Ok (nth i (c_descs (k_cfg k)) DNone) else UB.

Definition lsi (k : kbd) (i : nat) : lst := k_ls k i.
Definition set_lsi (i : nat) (l : lst) (k : kbd) : kbd := set_k_ls (nupd (k_ls k) i l) k.
Definition is_active (k : kbd) (i : nat) : bool := negb (l_active (k_ls k i) =? 0).

Definition emit (o : oev) (k : kbd) : kbd := set_k_out (o :: k_out k) k.
(* a list of effects in order of occurrence *)
Definition emits (os : list oev) (k : kbd) : kbd := set_k_out (rev os ++ k_out k) k.

(* daemon.c:144-152: some layer i >= 1 that is not a layout is active *)
Definition indicator (k : kbd) : bool :=
  existsb (fun i => negb (is_layout (ly_type (layer_at k i))) && is_active k i)
          (seq 1 (nlayers k - 1)).

(* ---- keyboard.c:22-46 (cache_set) --------------------------------------- *)
(* The scan stops at the first slot holding [code]; otherwise the last free
   slot is taken. *)
Fixpoint cache_slot (c : list centry) (code : N) (i : nat) (slot : option nat)
  : option nat :=
  match c with
  | [] => slot
  | e :: r =>
      if ce_code e =? code then Some i
      else cache_slot r code (S i) (if ce_code e =? 0 then Some i else slot)
  end.

(* None for return value -1.  With ent = None only the code is zeroed. *)
Definition cache_set (k : kbd) (code : N) (ent : option centry) : option kbd :=
  match cache_slot (k_cache k) code 0 None with
  | None => None
  | Some i =>
      let old := nth i (k_cache k) zero_ce in
      let new :=
        match ent with
        | None => mkCe 0 (ce_d old) (ce_dl old) (ce_layer old)
        | Some e => mkCe code (ce_d e) (ce_dl e) (ce_layer e)
        end in
      Some (set_k_cache (upd i new (k_cache k)) k)
  end.

(* keyboard.c:48-57 (cache_get): index of the first slot holding [code] *)
Fixpoint cache_find (c : list centry) (code : N) (i : nat) : option nat :=
  match c with
  | [] => None
  | e :: r => if ce_code e =? code then Some i else cache_find r code (S i)
  end.
Definition cache_get (k : kbd) (code : N) : option nat := cache_find (k_cache k) code 0.
Definition cache_nth (k : kbd) (i : nat) : centry := nth i (k_cache k) zero_ce.

(* ---- keyboard.c:59-70 (reset_keystate) ---------------------------------- *)
Definition reset_key (k : kbd) (i : nat) : kbd :=
  let c := N.of_nat i in
  if k_ks k c then set_k_ks (fupd (k_ks k) c false) (emit (OKey c false) k) else k.
Definition reset_keystate (k : kbd) : kbd := fold_left reset_key (seq 0 256) k.

(* ---- keyboard.c:72-84 (send_key) ---------------------------------------- *)
Definition send_key (k : kbd) (code : N) (pressed : bool) : kbd :=
  if (code =? K_NOOP) || (code =? K_EXTERNAL_MOUSE) then k
  else
    let k1 := if pressed then set_k_last_out code k else k in
    if Bool.eqb (k_ks k1 code) pressed then k1
    else emit (OKey code pressed) (set_k_ks (fupd (k_ks k1) code pressed) k1).

(* ---- keyboard.c:86-109 (clear_mod) -------------------------------------- *)
(* [inh] is kbd->inhibit_modifier_guard *)
Definition clear_mod (inh : bool) (k : kbd) (code : N) : kbd :=
  let guard :=
    (k_last_out k =? code)
    && ((code =? K_LEFTMETA) || (code =? K_LEFTALT) || (code =? K_RIGHTALT))
    && negb inh && negb (c_no_guard (k_cfg k)) in
  if guard && negb (k_ks k K_LEFTCTRL) then
    let k1 := send_key k K_LEFTCTRL true in
    let k2 := send_key k1 code false in
    send_key k2 K_LEFTCTRL false
  else send_key k code false.

(* ---- keyboard.c:111-127 (set_mods) -------------------------------------- *)
Definition set_mod1 (inh : bool) (mods : N) (k : kbd) (mk : N * N) : kbd :=
  let '(mask, code) := mk in
  if hasmod mask mods then
    (if k_ks k code then k else send_key k code true)
  else
    (if k_ks k code then clear_mod inh k code else k).
Definition set_mods (inh : bool) (k : kbd) (mods : N) : kbd :=
  fold_left (set_mod1 inh mods) modifiers k.

(* ---- keyboard.c:129-158 (update_mods) ----------------------------------- *)
(* excl = None models excluded_layer_idx == -1 *)
Definition excluded (k : kbd) (excl : option nat) (i : nat) : bool :=
  match excl with
  | None => false
  | Some x =>
      Nat.eqb i x
      || (is_composite (ly_type (layer_at k x))
          && existsb (Nat.eqb i) (ly_const (layer_at k x)))
  end.
Definition active_mods (k : kbd) (excl : option nat) (mods : N) : N :=
  fold_left
    (fun m i =>
       if is_active k i && negb (excluded k excl i)
       then N.lor m (ly_mods (layer_at k i)) else m)
    (seq 0 (nlayers k)) mods.
Definition update_mods (inh : bool) (k : kbd) (excl : option nat) (mods : N) : kbd :=
  set_mods inh k (active_mods k excl mods).

(* ---- keyboard.c:160-174 (execute_macro) --------------------------------- *)
Definition execute_macro (k : kbd) (dl : nat) (m : macro) : kbd :=
  match m with
  | [mkM MKeySeq data] =>
      let k1 := update_mods false k (Some dl) ((data / 256) mod 256) in
      let k2 := send_key k1 (data mod 256) true in
      send_key k2 (data mod 256) false
  | _ =>
      let k1 := update_mods false k (Some dl) 0 in
      emits (macro_execute m (c_macro_seq_timeout (k_cfg k))) k1
  end.

(* ---- keyboard.c:176-241 (lookup_descriptor) ----------------------------- *)
(* 195-208: scan of the active layers; (maxts, d, dl) *)
Definition lookup_step (k : kbd) (code : N) (acc : Z * desc * nat) (i : nat)
  : Z * desc * nat :=
  let '(maxts, d, dl) := acc in
  if is_active k i then
    let t := l_time (k_ls k i) in
    let b := ly_keymap (layer_at k i) code in
    if has_op b && (maxts <=? t)%Z then (t, b, i) else acc
  else acc.

(* 210-232: composite layers; (max, d, dl) *)
Definition composite_step (k : kbd) (code : N) (acc : nat * desc * nat) (i : nat)
  : nat * desc * nat :=
  let '(mx, d, dl) := acc in
  let ly := layer_at k i in
  if is_composite (ly_type ly) then
    let b := ly_keymap ly code in
    if forallb (is_active k) (ly_const ly) && has_op b
       && Nat.ltb mx (length (ly_const ly))
    then (length (ly_const ly), b, i) else acc
  else acc.

Definition is_chord_code (code : N) : bool := (K_CHORD_1 <=? code) && (code <=? K_CHORD_MAX).

Definition lookup_descriptor (k : kbd) (code : N) : desc * nat :=
  if is_chord_code code then
    let ac := nth (N.to_nat (code - K_CHORD_1)) (k_achords k) zero_ac in
    (ch_d (ac_chord ac), ac_layer ac)
  else
    let '(_, d1, dl1) := fold_left (lookup_step k code) (seq 0 (nlayers k)) (0%Z, DNone, 0%nat) in
    let '(_, d2, dl2) := fold_left (composite_step k code) (seq 0 (nlayers k)) (0%nat, d1, dl1) in
    if has_op d2 then (d2, dl2) else (DKey code 0, 0%nat).

(* ---- keyboard.c:243-251 (deactivate_layer) ------------------------------ *)
Definition deactivate_layer (k : kbd) (i : nat) : res kbd :=
  _ <- chk_layer i ;;
  let l := k_ls k i in
  if l_active l =? 0 then Crash CLayerInactive
  else
    let k1 := set_lsi i (set_l_active (l_active l - 1) l) k in
    Ok (emit (OLayer i false (indicator k1)) k1).

(* ---- keyboard.c:258-270 (activate_layer), with get_time 15-20 ----------- *)
Definition set_ce_layer (c : list centry) (code : N) (idx : nat) : list centry :=
  match cache_find c code 0 with
  | None => c
  | Some i =>
      let e := nth i c zero_ce in
      upd i (mkCe (ce_code e) (ce_d e) (ce_dl e) idx) c
  end.
Definition activate_layer (k : kbd) (code : N) (i : nat) : res kbd :=
  _ <- chk_layer i ;;
  let l := k_ls k i in
  let l' := mkLst (k_clock k) ((l_active l + 1) mod 256) (l_toggled l) (l_depth l) in
  let k1 := set_k_clock (k_clock k + 1)%Z (set_lsi i l' k) in
  let k2 := set_k_cache (set_ce_layer (k_cache k1) code i) k1 in
  Ok (emit (OLayer i true (indicator k2)) k2).

(* ---- keyboard.c:277-305 (chord_event_match) ----------------------------- *)
Definition in_keys (c : N) (keys : list N) : bool := existsb (N.eqb c) keys.
(* n = number of pressed events, if all of them belong to the chord *)
Fixpoint chord_presses (keys : list N) (evs : list kev) (n : nat) : option nat :=
  match evs with
  | [] => Some n
  | e :: r =>
      if ev_pressed e then
        (if in_keys (ev_code e) keys then chord_presses keys r (S n) else None)
      else chord_presses keys r n
  end.
Inductive cmatch := NoMatch | Partial | Full.
Definition chord_event_match (ch : chord) (evs : list kev) : cmatch :=
  match chord_presses (ch_keys ch) evs 0 with
  | None => NoMatch
  | Some O => NoMatch
  | Some n => if Nat.eqb n (length (ch_keys ch)) then Full else Partial
  end.

(* ---- keyboard.c:307-319 (enqueue_chord_event) --------------------------- *)
Definition enqueue_chord_event (k : kbd) (code : N) (pressed : bool) (time : Z) : res kbd :=
  if code =? 0 then Ok k
  else if Nat.ltb (length (h_queue (k_chord k))) MAX_QUEUE then
    Ok (set_k_chord
          (set_h_queue (h_queue (k_chord k) ++ [mkKev code pressed time]) (k_chord k)) k)
  else Crash CChordQueue.

(* ---- keyboard.c:327-365 (check_chord_match) ----------------------------- *)
(* accumulator: (best full match as (layer, chord), maxts, partial seen) *)
Definition cmacc : Type := (option (nat * nat) * Z * bool)%type.
Definition check_chord1 (queue : list kev) (ts : Z) (li : nat)
  (acc : cmacc) (ic : nat * chord) : cmacc :=
  let '(best, maxts, part) := acc in
  let '(ci, ch) := ic in
  match chord_event_match ch queue with
  | Full => if (maxts <=? ts)%Z then (Some (li, ci), ts, part) else acc
  | Partial => (best, maxts, true)
  | NoMatch => acc
  end.
Definition check_layer1 (k : kbd) (acc : cmacc) (li : nat) : cmacc :=
  if is_active k li then
    let chs := ly_chords (layer_at k li) in
    fold_left (check_chord1 (h_queue (k_chord k)) (l_time (k_ls k li)) li)
              (combine (seq 0 (length chs)) chs) acc
  else acc.
Inductive ccres := CC0 | CC1 | CC2 | CC3.
(* The result code, and the keyboard with chord.match / match_layer set if a
   full match was found. *)
Definition check_chord_match (k : kbd) : ccres * kbd :=
  let '(best, _, part) :=
    fold_left (check_layer1 k) (seq 0 (nlayers k)) (None, (-1)%Z, false) in
  match best with
  | Some (li, ci) =>
      let k' := set_k_chord (set_h_match (Some (li, ci)) (set_h_mlayer li (k_chord k))) k in
      (if part then CC3 else CC2, k')
  | None => (if part then CC1 else CC0, k)
  end.

(* The chord behind chord.match (config.h:99: chords[64]) *)
Definition deref_match (k : kbd) (p : nat * nat) : res chord :=
  let '(li, ci) := p in
  if Nat.ltb li MAX_LAYERS && Nat.ltb ci 64 then
    Ok (nth ci (ly_chords (layer_at k li)) zero_chord)
  else UB.

(* ---- keyboard.c:398-410 (clear_oneshot) --------------------------------- *)
Fixpoint drop_oneshots (n : nat) (k : kbd) (i : nat) : res kbd :=
  match n with
  | O => Ok k
  | S n' =>
      k1 <- deactivate_layer k i ;;
      let l := k_ls k1 i in
      drop_oneshots n' (set_lsi i (set_l_depth (l_depth l - 1) l) k1) i
  end.
Fixpoint clear_oneshot_layers (is : list nat) (k : kbd) : res kbd :=
  match is with
  | [] => Ok k
  | i :: r =>
      k1 <- drop_oneshots (N.to_nat (l_depth (k_ls k i))) k i ;;
      clear_oneshot_layers r k1
  end.
Definition clear_oneshot (k : kbd) : res kbd :=
  k1 <- clear_oneshot_layers (seq 0 (nlayers k)) k ;;
  Ok (set_k_oneshot_to 0%Z (set_k_latch false k1)).

(* ---- keyboard.c:412-430 (clear) ----------------------------------------- *)
Fixpoint clear_toggled (is : list nat) (k : kbd) : res kbd :=
  match is with
  | [] => Ok k
  | i :: r =>
      k1 <- (if negb (is_layout (ly_type (layer_at k i))) && l_toggled (k_ls k i)
             then deactivate_layer (set_lsi i (set_l_toggled false (k_ls k i)) k) i
             else Ok k) ;;
      clear_toggled r k1
  end.
Definition clear (k : kbd) : res kbd :=
  k1 <- clear_oneshot k ;;
  k2 <- clear_toggled (seq 1 (nlayers k1 - 1)) k1 ;;
  Ok (reset_keystate (set_k_amacro None k2)).

(* ---- keyboard.c:432-451 (setlayout) ------------------------------------- *)
Definition drop_layout (k : kbd) (i : nat) : kbd :=
  if is_layout (ly_type (layer_at k i))
  then set_lsi i (set_l_active 0 (k_ls k i)) k else k.
Definition setlayout (k : kbd) (idx : nat) : res kbd :=
  _ <- chk_layer idx ;;
  k1 <- clear k ;;
  let k2 := fold_left drop_layout (seq 1 (nlayers k1 - 1)) k1 in
  let k3 :=
    if Nat.eqb idx 0 then k2
    else set_lsi idx (set_l_active 1 (set_l_time 1%Z (k_ls k2 idx))) k2 in
  Ok (emit (OLayer idx true (indicator k3)) k3).

(* ---- keyboard.c:454-458 (schedule_timeout) ------------------------------ *)
Definition schedule_timeout (k : kbd) (t : Z) : res kbd :=
  if Nat.ltb (length (k_timeouts k)) MAX_TIMEOUTS
  then Ok (set_k_timeouts (k_timeouts k ++ [t]) k)
  else Crash CTimeouts.

(* ---- keyboard.c:460-476 (calculate_main_loop_timeout) ------------------- *)
Definition min_timeout (ts : list Z) : Z :=
  fold_left (fun best t => if (best =? 0)%Z || (t <? best)%Z then t else best) ts 0%Z.
Definition calculate_main_loop_timeout (k : kbd) (time : Z) : kbd * Z :=
  let live := filter (fun t => (time <? t)%Z) (k_timeouts k) in
  let t := min_timeout live in
  (set_k_timeouts live k, if (t =? 0)%Z then 0%Z else (t - time)%Z).

(* ---- keyboard.c:478-803 (process_descriptor) ---------------------------- *)
(* 559-564: replace the descriptor of the first cache slot holding [code] *)
Definition cache_replace_d (k : kbd) (code : N) (d : desc) : kbd :=
  match cache_find (k_cache k) code 0 with
  | None => k
  | Some i =>
      let e := nth i (k_cache k) zero_ce in
      set_k_cache (upd i (mkCe (ce_code e) d (ce_dl e) (ce_layer e)) (k_cache k)) k
  end.

(* 758-767: first occupied cache slot whose .layer is the normal layer dl *)
Fixpoint swap_slot (k : kbd) (c : list centry) (dl : nat) (i : nat) : option nat :=
  match c with
  | [] => None
  | e :: r =>
      if negb (ce_code e =? 0) && Nat.eqb (ce_layer e) dl
         && is_normal (ly_type (layer_at k (ce_layer e))) && negb (Nat.eqb (ce_layer e) 0)
      then Some i else swap_slot k r dl (S i)
  end.

(* 740-784: the layer switching part of a swap press *)
Definition do_swap (k : kbd) (dl idx : nat) : res kbd :=
  _ <- chk_layer dl ;;
  _ <- chk_layer idx ;;
  if l_toggled (k_ls k dl) then
    k1 <- deactivate_layer k dl ;;
    let k2 := set_lsi dl (set_l_toggled false (k_ls k1 dl)) k1 in
    k3 <- activate_layer k2 0 idx ;;
    let k4 := set_lsi idx (set_l_toggled true (k_ls k3 idx)) k3 in
    Ok (update_mods false k4 None 0)
  else if negb (l_depth (k_ls k dl) =? 0) then
    k1 <- deactivate_layer k dl ;;
    let k2 := set_lsi dl (set_l_depth (l_depth (k_ls k1 dl) - 1) (k_ls k1 dl)) k1 in
    k3 <- activate_layer k2 0 idx ;;
    let k4 := set_lsi idx (set_l_depth ((l_depth (k_ls k3 idx) + 1) mod 256) (k_ls k3 idx)) k3 in
    Ok (update_mods false k4 None 0)
  else
    match swap_slot k (k_cache k) dl 0 with
    | None => Ok k
    | Some i =>
        let e := nth i (k_cache k) zero_ce in
        let k0 := set_k_cache
                    (upd i (mkCe (ce_code e) (DLayer idx) (ce_dl e) (ce_layer e)) (k_cache k)) k in
        k1 <- deactivate_layer k0 dl ;;
        k2 <- activate_layer k1 (ce_code e) idx ;;
        Ok (update_mods false k2 None 0)
    end.

Definition set_pending (k : kbd) (code : N) (dl : nat) (expire : Z) (b : pkbeh)
  (a1 a2 : desc) : res kbd :=
  let p := mkPend code dl expire b (p_queue (k_pend k)) a1 a2 in
  schedule_timeout (set_k_pend p k) expire.

(* 484-497: macro executed before layerm/oneshotm/togglem *)
Definition pre_macro (d : desc) (pressed : bool) (dl : nat) (k : kbd) : res kbd :=
  if pressed then
    match d with
    | DLayerM _ m | DOneshotM _ m | DToggleM _ m =>
        mm <- macro_at k m ;; Ok (execute_macro k dl mm)
    | _ => Ok k
    end
  else Ok k.

Definition pd_key (k : kbd) (c mods : N) (dl : nat) (pressed : bool) (time : Z) : res kbd :=
  k1 <- (if pressed then
           let a := if k_ks k c then send_key k c false else k in
           let b := update_mods false a (Some dl) mods in
           clear_oneshot (send_key b c true)
         else Ok (update_mods false (send_key k c false) None 0)) ;;
  Ok (if (mods =? 0) || (mods =? MOD_SHIFT) then set_k_last_simple time k1 else k1).

Definition pd_layer (k : kbd) (code : N) (idx : nat) (pressed : bool) : res kbd :=
  k1 <- (if pressed then activate_layer k code idx else deactivate_layer k idx) ;;
  Ok (update_mods (k_last_code k1 =? code) k1 None 0).

Definition pd_oneshot (k : kbd) (code : N) (idx dl : nat) (pressed : bool) (time : Z) : res kbd :=
  if pressed then
    k1 <- activate_layer k code idx ;;
    Ok (set_k_latch true (update_mods false k1 (Some dl) 0))
  else if k_latch k then
    _ <- chk_layer idx ;;
    let k1 := set_lsi idx (set_l_depth ((l_depth (k_ls k idx) + 1) mod 256) (k_ls k idx)) k in
    if (c_oneshot_timeout (k_cfg k) =? 0)%Z then Ok k1
    else
      let t := (time + c_oneshot_timeout (k_cfg k))%Z in
      schedule_timeout (set_k_oneshot_to t k1) t
  else
    k1 <- deactivate_layer k idx ;;
    Ok (update_mods false k1 None 0).

Definition pd_macro (k : kbd) (m : nat) (timeout repeat : Z) (dl : nat) (pressed : bool) (time : Z)
  : res kbd :=
  if pressed then
    mm <- macro_at k m ;;
    k1 <- clear_oneshot (set_k_repeat repeat k) ;;
    let k2 := execute_macro k1 dl mm in
    let k3 := set_k_macro_to (time + timeout)%Z
                (set_k_amacro_layer dl (set_k_amacro (Some m) k2)) in
    schedule_timeout k3 (time + timeout)%Z
  else Ok k.

Definition pd_toggle (k : kbd) (code : N) (idx : nat) (pressed : bool) : res kbd :=
  if pressed then
    _ <- chk_layer idx ;;
    let l := k_ls k idx in
    let k1 := set_lsi idx (set_l_toggled (negb (l_toggled l)) l) k in
    k2 <- (if l_toggled l then deactivate_layer k1 idx else activate_layer k1 code idx) ;;
    clear_oneshot (update_mods false k2 None 0)
  else Ok k.

Definition pd_swap (k : kbd) (idx dl : nat) (mm : option macro) (pressed : bool) : res kbd :=
  if pressed then
    k1 <- do_swap k dl idx ;;
    Ok (match mm with Some m => execute_macro k1 dl m | None => k1 end)
  else
    Ok (match mm with
        | Some [mkM MKeySeq data] =>
            update_mods false (send_key k (data mod 256) false) None 0
        | _ => k
        end).

(* [fuel] bounds the nesting of actions inside actions. *)
Fixpoint process_descriptor (fuel : nat) (k : kbd) (code : N) (d : desc) (dl : nat)
  (pressed : bool) (time : Z) : res kbd :=
  match fuel with
  | O => NoFuel
  | S fuel' =>
      k0 <- pre_macro d pressed dl k ;;
      k1 <-
        match d with
        | DNone => Ok k0
        | DKey c mods => pd_key k0 c mods dl pressed time
        | DScroll s =>
            Ok (set_k_scroll (set_s_active pressed (set_s_sens s (k_scroll k0))) k0)
        | DScrollToggle s =>
            let sc := set_s_sens s (k_scroll k0) in
            Ok (set_k_scroll
                  (if pressed then set_s_active (negb (s_active sc)) sc else sc) k0)
        | DOverloadI a1 a2 t =>
            if pressed then
              action <- desc_at k0 (if (t <=? time - k_last_simple k0)%Z then a2 else a1) ;;
              k1 <- process_descriptor fuel' k0 code action dl true time ;;
              Ok (cache_replace_d k1 code action)
            else Ok k0
        | DOverloadT l a t =>
            if pressed then
              action <- desc_at k0 a ;;
              set_pending k0 code dl (time + t)%Z PkUninterruptible action (DLayer l)
            else Ok k0
        | DOverloadT2 l a t =>
            if pressed then
              action <- desc_at k0 a ;;
              set_pending k0 code dl (time + t)%Z PkTap2 action (DLayer l)
            else Ok k0
        | DLayout l => if pressed then setlayout k0 l else Ok k0
        | DLayerM l _ | DLayer l => pd_layer k0 code l pressed
        | DClearM m =>
            if pressed then
              mm <- macro_at k0 m ;;
              k1 <- clear k0 ;;
              Ok (execute_macro k1 dl mm)
            else Ok k0
        | DClear => if pressed then clear k0 else Ok k0
        | DOverload l a =>
            action <- desc_at k0 a ;;
            if pressed then
              k1 <- activate_layer (set_k_ovl_start time k0) code l ;;
              Ok (update_mods false k1 None 0)
            else
              k1 <- deactivate_layer k0 l ;;
              let k2 := update_mods false k1 None 0 in
              if (k_last_code k2 =? code)
                 && ((c_tap_timeout (k_cfg k2) =? 0)%Z
                     || (time - k_ovl_start k2 <? c_tap_timeout (k_cfg k2))%Z)
              then
                match action with
                | DMacro m => mm <- macro_at k2 m ;; Ok (execute_macro k2 dl mm)
                | _ =>
                    k3 <- process_descriptor fuel' k2 code action dl true time ;;
                    process_descriptor fuel' k3 code action dl false time
                end
              else Ok k2
        | DOneshotM l _ | DOneshot l => pd_oneshot k0 code l dl pressed time
        | DMacro2 t r m => pd_macro k0 m t r dl pressed time
        | DMacro m =>
            pd_macro k0 m (c_macro_timeout (k_cfg k0)) (c_macro_repeat (k_cfg k0)) dl pressed time
        | DToggleM l _ | DToggle l => pd_toggle k0 code l pressed
        | DTimeout a1 t a2 =>
            if pressed then
              x1 <- desc_at k0 a1 ;;
              x2 <- desc_at k0 a2 ;;
              set_pending k0 code dl (time + t)%Z PkInterrupt1 x1 x2
            else Ok k0
        | DCommand c =>
            if pressed then
              cmd <- cmd_at k0 c ;;
              k1 <- clear_oneshot (emit (OCmd cmd) k0) ;;
              Ok (update_mods false k1 None 0)
            else Ok k0
        | DSwap l => pd_swap k0 l dl None pressed
        | DSwapM l m => mm <- macro_at k0 m ;; pd_swap k0 l dl (Some mm) pressed
        end ;;
      Ok (if pressed then set_k_last_code code k1 else k1)
  end.

(* Enough fuel when nested descriptors have smaller indices than the ones that
   refer to them (as produced by parse_descriptor). *)
Definition pd_fuel (k : kbd) : nat := S (S (length (c_descs (k_cfg k)))).
Definition do_desc (k : kbd) (code : N) (d : desc) (dl : nat) (pressed : bool) (time : Z) : res kbd :=
  process_descriptor (pd_fuel k) k code d dl pressed time.

(* ---- keyboard.c:805-843 (new_keyboard) ---------------------------------- *)
Definition zero_lst : lst := mkLst 0 0 false 0.
Fixpoint find_layout (ls : list layer) (name : str) (i : nat) : option nat :=
  match ls with
  | [] => None
  | l :: r =>
      if is_layout (ly_type l) && str_eqb (ly_name l) name then Some i
      else find_layout r name (S i)
  end.
Definition new_keyboard (c : config) (clock : Z) : kbd :=
  let ls0 := nupd (fun _ => zero_lst) 0%nat (mkLst 0 1 false 0) in
  let ls1 :=
    match c_default_layout c with
    | [] => ls0
    | name =>
        match find_layout (c_layers c) name 0 with
        | None => ls0
        | Some i => nupd ls0 i (mkLst 1 1 false 0)
        end
    end in
  mkKbd c c (repeat zero_ce CACHE_SIZE) 0 0 false None 0 0 0 0 0 0
        [] (repeat zero_ac 3)
        (mkCh [] None 0 0 CsInactive)
        (mkPend 0 0 0 PkInterrupt1 [] DNone DNone)
        ls1 (fun _ => false) (mkScroll 0 0 0 false) clock [].

(* ---- the event loop ------------------------------------------------------- *)
(* [pe] is process_event, passed as a parameter (open recursion). *)
Definition pe_t : Type := kbd -> N -> bool -> Z -> res (kbd * Z).
(* [pes] is kbd_process_events *)
Definition pes_t : Type := kbd -> list kev -> res (kbd * Z).

(* keyboard.c:853-865: first free active_chords slot *)
Fixpoint free_chord (acs : list achord) (i : nat) : option nat :=
  match acs with
  | [] => None
  | a :: r => if ac_active a then free_chord r (S i) else Some i
  end.

Definition set_cstate (s : cstate) (k : kbd) : kbd := set_k_chord (set_h_state s (k_chord k)) k.

(* keyboard.c:845-880 (resolve_chord).  The queue is replayed in place in C; it
   is not modified meanwhile because every nested handle_chord returns early in
   state CHORD_RESOLVING, so reading it up front is equivalent.  A queue shorter
   than the chord would make queue_sz - queue_offset wrap around: UB. *)
Definition resolve_chord (pe : pe_t) (pes : pes_t) (k : kbd) : res (kbd * bool) :=
  let k0 := set_cstate CsResolving k in
  '(k1, off) <-
    match h_match (k_chord k0) with
    | None => Ok (k0, O)
    | Some p =>
        ch <- deref_match k0 p ;;
        match free_chord (k_achords k0) 0 with
        | None => Crash CActiveChords
        | Some i =>
            let k1 := set_k_achords
                        (upd i (mkAc true ch (h_mlayer (k_chord k0))) (k_achords k0)) k0 in
            '(k2, _) <- pe k1 (K_CHORD_1 + N.of_nat i) true (h_last (k_chord k1)) ;;
            Ok (k2, length (ch_keys ch))
        end
    end ;;
  if Nat.ltb (length (h_queue (k_chord k0))) off then UB
  else
    '(k3, _) <- pes k1 (skipn off (h_queue (k_chord k0))) ;;
    Ok (set_cstate CsInactive k3, true).

(* keyboard.c:882-886 (abort_chord) *)
Definition abort_chord (pe : pe_t) (pes : pes_t) (k : kbd) : res (kbd * bool) :=
  resolve_chord pe pes (set_k_chord (set_h_match None (k_chord k)) k).

(* keyboard.c:895-923: index of the first active chord containing [code] *)
Fixpoint chord_of_key (acs : list achord) (code : N) (i : nat) : option nat :=
  match acs with
  | [] => None
  | a :: r =>
      if ac_active a && in_keys code (ch_keys (ac_chord a)) then Some i
      else chord_of_key r code (S i)
  end.

(* The common tail of the two check_chord_match switches (keyboard.c:934-955 and
   981-1002), for results 1, 2 and 3. *)
Definition chord_matched (pe : pe_t) (pes : pes_t) (k : kbd) (r : ccres) (time : Z)
  : res (kbd * bool) :=
  let k1 := set_k_chord (set_h_last time (k_chord k)) k in
  let hold := c_chord_hold (k_cfg k) in
  match r with
  | CC2 =>
      if (hold =? 0)%Z then resolve_chord pe pes k1
      else
        k2 <- schedule_timeout (set_cstate CsHold k1) (time + hold)%Z ;;
        Ok (k2, true)
  | _ =>
      k2 <- schedule_timeout (set_cstate CsDisambiguation k1)
              (time + c_chord_interkey (k_cfg k))%Z ;;
      Ok (k2, true)
  end.

(* keyboard.c:888-1027 (handle_chord); the boolean is the return value *)
Definition handle_chord (pe : pe_t) (pes : pes_t)
  (k : kbd) (code : N) (pressed : bool) (time : Z) : res (kbd * bool) :=
  let interkey := c_chord_interkey (k_cfg k) in
  let hold := c_chord_hold (k_cfg k) in
  match (if negb (code =? 0) && negb pressed then chord_of_key (k_achords k) code 0 else None) with
  | Some i =>
      let ac := nth i (k_achords k) zero_ac in
      let keys' := map (fun x => if x =? code then 0 else x) (ch_keys (ac_chord ac)) in
      let remaining := existsb (fun x => negb (x =? 0)) keys' in
      let ac' := mkAc remaining (mkChord keys' (ch_d (ac_chord ac))) (ac_layer ac) in
      let k1 := set_k_achords (upd i ac' (k_achords k)) k in
      if remaining then Ok (k1, true)
      else
        '(k2, _) <- pe k1 (K_CHORD_1 + N.of_nat i) false time ;;
        Ok (k2, true)
  | None =>
      match h_state (k_chord k) with
      | CsResolving => Ok (k, false)
      | CsInactive =>
          let k0 := set_k_chord (set_h_match None (set_h_queue [] (k_chord k))) k in
          k1 <- enqueue_chord_event k0 code pressed time ;;
          let '(r, k2) := check_chord_match k1 in
          match r with
          | CC0 => Ok (k2, false)
          | _ => chord_matched pe pes k2 r time
          end
      | CsDisambiguation =>
          if code =? 0 then
            if (interkey <=? time - h_last (k_chord k))%Z then
              match h_match (k_chord k) with
              | Some _ =>
                  let timeleft := (hold - interkey)%Z in
                  if (0 <? timeleft)%Z then
                    k1 <- schedule_timeout k (time + timeleft)%Z ;;
                    Ok (set_cstate CsHold k1, true)
                  else resolve_chord pe pes k
              | None => abort_chord pe pes k
              end
            else Ok (k, false)
          else
            k1 <- enqueue_chord_event k code pressed time ;;
            if negb pressed then abort_chord pe pes k1
            else
              let '(r, k2) := check_chord_match k1 in
              match r with
              | CC0 => abort_chord pe pes k2
              | _ => chord_matched pe pes k2 r time
              end
      | CsHold =>
          if code =? 0 then
            if (hold <=? time - h_last (k_chord k))%Z then resolve_chord pe pes k
            else Ok (k, false)
          else
            k1 <- enqueue_chord_event k code pressed time ;;
            if negb pressed then
              match h_match (k_chord k1) with
              | None => UB   (* kbd->chord.match->sz with match == NULL *)
              | Some p =>
                  ch <- deref_match k1 p ;;
                  if in_keys code (ch_keys ch) then abort_chord pe pes k1
                  else Ok (k1, true)
              end
            else Ok (k1, true)
      end
  end.

(* keyboard.c:1063-1086: the decision.  DNone = still undecided. *)
Definition pending_action (p : pend) (code : N) (pressed : bool) (time : Z) : desc :=
  if (p_expire p <=? time)%Z then p_a2 p
  else if code =? p_code p then p_a1 p
  else
    let hit := negb (code =? 0) && pressed in
    match p_beh p with
    | PkInterrupt1 => if hit then p_a1 p else DNone
    | PkInterrupt2 => if hit then p_a2 p else DNone
    | PkTap2 =>
        if negb pressed && existsb (fun e => ev_code e =? code) (p_queue p)
        then p_a2 p else DNone
    | PkUninterruptible => DNone
    end.

(* keyboard.c:1029-1113 (handle_pending_key) *)
Definition handle_pending_key (pes : pes_t)
  (k : kbd) (code : N) (pressed : bool) (time : Z) : res (kbd * bool) :=
  let p := k_pend k in
  if p_code p =? 0 then Ok (k, false)
  else if negb (code =? 0) && negb (Nat.ltb (length (p_queue p)) MAX_QUEUE)
  then Crash CPendingQueue
  else if negb (code =? 0) && negb pressed
          && negb (existsb (fun e => ev_code e =? code) (p_queue p))
          && negb (code =? p_code p)
  then Ok (k, false)
  else
    let p1 := if code =? 0 then p
              else set_p_queue (p_queue p ++ [mkKev code pressed time]) p in
    let action := pending_action p1 code pressed time in
    if has_op action then
      let pcode := p_code p1 in
      let dl := p_dl p1 in
      let queue := p_queue p1 in
      let k1 := set_k_pend (set_p_code 0 (set_p_queue [] p1)) k in
      let k2 :=
        match cache_set k1 pcode (Some (mkCe 0 action dl 0)) with
        | Some k' => k'
        | None => k1                (* return value ignored (line 1099) *)
        end in
      k3 <- do_desc k2 pcode action dl true time ;;
      '(k4, _) <- pes k3 queue ;;
      Ok (k4, true)
    else Ok (set_k_pend p1 k, true).

(* keyboard.c:1133-1136: oneshot expiry *)
Definition expire_oneshot (k : kbd) (time : Z) : res kbd :=
  if negb (k_oneshot_to k =? 0)%Z && (k_oneshot_to k <=? time)%Z then
    k1 <- clear_oneshot k ;;
    Ok (update_mods false k1 None 0)
  else Ok k.

(* keyboard.c:1138-1147: repeating macro *)
Definition run_active_macro (k : kbd) (code : N) (time : Z) : res kbd :=
  match k_amacro k with
  | None => Ok k
  | Some m =>
      if negb (code =? 0) then Ok (update_mods false (set_k_amacro None k) None 0)
      else if (k_macro_to k <=? time)%Z then
        mm <- macro_at k m ;;
        let k1 := execute_macro k (k_amacro_layer k) mm in
        let t := (time + k_repeat k1)%Z in
        schedule_timeout (set_k_macro_to t k1) t
      else Ok k
  end.

(* keyboard.c:1149-1177: the key itself *)
Definition handle_key (k : kbd) (code : N) (pressed : bool) (time : Z) : res kbd :=
  if code =? 0 then Ok k
  else if pressed then
    match cache_get k code with
    | Some _ => Ok k
    | None =>
        let '(d, dl) := lookup_descriptor k code in
        match cache_set k code (Some (mkCe 0 d dl 0)) with
        | None => Ok k
        | Some k1 => do_desc k1 code d dl true time
        end
    end
  else
    match cache_get k code with
    | None => Ok k
    | Some i =>
        let ce := cache_nth k i in
        match cache_set k code None with
        | None => Ok k     (* impossible: the slot exists *)
        | Some k1 => do_desc k1 code (ce_d ce) (ce_dl ce) false time
        end
    end.

(* keyboard.c:1122-1184 (process_event) *)
Definition process_event_F (pe : pe_t) (pes : pes_t)
  (k : kbd) (code : N) (pressed : bool) (time : Z) : res (kbd * Z) :=
  '(k1, b1) <- handle_chord pe pes k code pressed time ;;
  if b1 then Ok (calculate_main_loop_timeout k1 time)
  else
    '(k2, b2) <- handle_pending_key pes k1 code pressed time ;;
    if b2 then Ok (calculate_main_loop_timeout k2 time)
    else
      k3 <- expire_oneshot k2 time ;;
      k4 <- run_active_macro k3 code time ;;
      k5 <- handle_key k4 code pressed time ;;
      Ok (calculate_main_loop_timeout k5 time).

(* keyboard.c:1187-1207 (kbd_process_events).  timeout and timeout_ts are C ints:
   truncation is not modelled. *)
Fixpoint pe_loop (pe : pe_t) (fuel : nat) (k : kbd) (evs : list kev) (timeout ts : Z)
  : res (kbd * Z) :=
  match evs with
  | [] => Ok (k, timeout)
  | ev :: rest =>
      match fuel with
      | O => NoFuel
      | S fuel' =>
          if (0 <? timeout)%Z && (ts <=? ev_time ev)%Z then
            '(k1, t) <- pe k 0 false ts ;;
            pe_loop pe fuel' k1 evs t (ts + t)%Z
          else
            '(k1, t) <- pe k (ev_code ev) (ev_pressed ev) (ev_time ev) ;;
            pe_loop pe fuel' k1 rest t (ev_time ev + t)%Z
      end
  end.

Fixpoint process_event (fuel : nat) : pe_t :=
  match fuel with
  | O => fun _ _ _ _ => NoFuel
  | S f =>
      process_event_F (process_event f)
        (fun k evs => pe_loop (process_event f) f k evs 0 0)
  end.

Definition kbd_process_events (fuel : nat) (k : kbd) (evs : list kev) : res (kbd * Z) :=
  pe_loop (process_event fuel) fuel k evs 0 0.
