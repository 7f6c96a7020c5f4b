(* Specification vocabulary for C20 and C21: chords. *)
From Coq Require Import Permutation.
From Verif Require Import Base Keys Types MacroExec Kbd Config SpecMods SpecLookup SpecTerm.

(* ---- the configuration without its chords ------------------------------------------- *)
Definition unchord_layer (l : layer) : layer := set_ly_chords [] l.
Definition unchord (c : config) : config := set_c_layers (map unchord_layer (c_layers c)) c.
(* the keyboard as it would be had its configuration no chords *)
Definition no_chords (k : kbd) : kbd :=
  set_k_chord (mkCh [] None 0 0 CsInactive) (set_k_cfg (unchord (k_cfg k)) k).

(* ---- striking a chord ---------------------------------------------------------------- *)
(* ch is a chord of the active layer i *)
Definition chord_at (k : kbd) (i : nat) (ch : chord) : Prop :=
  layer_active k i /\ In ch (ly_chords (layer_of k i)).

(* the keys struck all belong to the chord; all of the chord's keys have been struck.
   (A key struck twice, on two keyboards, counts twice.) *)
Definition fits (ch : chord) (evs : list kev) : Prop := Forall (fun e => In (ev_code e) (ch_keys ch)) evs.
Definition complete (ch : chord) (evs : list kev) : Prop := fits ch evs /\ length evs = length (ch_keys ch).
(* they are part of some chord of an active layer *)
Definition begun (k : kbd) (evs : list kev) : Prop :=
  exists i ch, chord_at k i ch /\ fits ch evs /\ length evs <> length (ch_keys ch).
(* no chord is complete with them *)
Definition unfinished (k : kbd) (evs : list kev) : Prop := forall i ch, chord_at k i ch -> ~ complete ch evs.
(* part of some chord from the first key on *)
Definition hopeful (k : kbd) (evs : list kev) : Prop := forall p q, evs = p ++ q -> p <> [] -> begun k p.

(* of several complete chords, the one of the layer activated last wins (then the layer
   defined last); within a layer the chord defined last *)
Definition winner (k : kbd) (evs : list kev) (i : nat) (ch : chord) : Prop :=
  layer_active k i /\ complete ch evs
  /\ (exists pre post, ly_chords (layer_of k i) = pre ++ ch :: post /\ forall ch', In ch' post -> ~ complete ch' evs)
  /\ forall j ch', chord_at k j ch' -> complete ch' evs ->
       (act_time k j < act_time k i)%Z \/ (act_time k j = act_time k i /\ j <= i).
(* the longest complete chord among the keys struck: chord ch of layer i, the keys [extra]
   struck on top *)
Definition longest (k : kbd) (evs : list kev) (i : nat) (ch : chord) (extra : list kev) : Prop :=
  exists p, evs = p ++ extra /\ p <> [] /\ winner k p i ch
    /\ forall q1 q2, extra = q1 ++ q2 -> q1 <> [] -> unfinished k (p ++ q1).
Definition none_complete (k : kbd) (evs : list kev) : Prop :=
  forall p q, evs = p ++ q -> p <> [] -> unfinished k p.

(* presses, each less than [gap] ms after the one before *)
Definition press (e : kev) : Prop := ev_pressed e = true /\ ev_code e <> 0%N.
Inductive follow (gap : Z) : Z -> list kev -> Prop :=
| fo_end t : follow gap t []
| fo_next t e r : press e -> (t <= ev_time e < t + gap)%Z -> follow gap (ev_time e) r -> follow gap t (e :: r).
Definition spaced (gap : Z) (evs : list kev) : Prop :=
  match evs with
  | [] => True
  | e :: r => press e /\ (0 <= ev_time e)%Z /\ follow gap (ev_time e) r
  end.
Definition last_time (evs : list kev) : Z := last (map ev_time evs) 0%Z.

(* the timers after evs were struck: those from before and, for the keys struck, the end
   of the time allowed for the next and of the time a complete chord must be held *)
Definition timers_of (k : kbd) (evs : list kev) (ts : list Z) : Prop :=
  forall t, In t ts -> In t (k_timeouts k)
    \/ exists e, In e evs /\ (t = ev_time e + c_chord_interkey (k_cfg k) \/ t = ev_time e + c_chord_hold (k_cfg k))%Z.

(* ---- an attempt under way ------------------------------------------------------------ *)
(* k' is k but for the timers and the chord machinery, which has noted that evs were
   struck: nothing has been done about them *)
Definition midway (k : kbd) (evs : list kev) (k' : kbd) : Prop :=
  evs <> [] /\ exists m ml ts,
    k' = set_k_timeouts ts (set_k_chord (mkCh evs m ml (last_time evs) CsDisambiguation) k)
    /\ timers_of k evs ts
    /\ match m with
       | None => none_complete k evs
       | Some (i, ci) =>
           ml = i /\ exists ch extra, nth_error (ly_chords (layer_of k i)) ci = Some ch /\ longest k evs i ch extra
       end.
(* chord ch of layer i was completed by the first of the keys evs; it fires once held long
   enough; [more] has happened since *)
Definition holding (k : kbd) (evs : list kev) (i : nat) (ch : chord) (extra more : list kev) (k' : kbd) : Prop :=
  evs <> [] /\ exists ci ts,
    k' = set_k_timeouts ts (set_k_chord (mkCh (evs ++ more) (Some (i, ci)) i (last_time evs) CsHold) k)
    /\ timers_of k evs ts /\ nth_error (ly_chords (layer_of k i)) ci = Some ch /\ longest k evs i ch extra.
(* the release of a key that takes part in no active chord *)
Definition loose (k : kbd) (code : N) : Prop :=
  forall ac, In ac (k_achords k) -> ac_active ac = true -> ~ In code (ch_keys (ac_chord ac)).
Definition release (e : kev) : Prop := ev_pressed e = false /\ ev_code e <> 0%N.
(* what leaves a held chord alone: presses, and releases of other keys *)
Definition beside (k : kbd) (ch : chord) (e : kev) : Prop :=
  press e \/ (release e /\ loose k (ev_code e) /\ ~ In (ev_code e) (ch_keys ch)).
(* the attempt will be given up at [due] if nothing else happens: there is a timer, and
   the caller, told to call back at [next], will do so by then *)
Definition alarm_set (k' : kbd) (due delay next : Z) : Prop :=
  (0 < delay)%Z /\ In due (k_timeouts k') /\ In next (k_timeouts k') /\ forall y, In y (k_timeouts k') -> (next <= y)%Z.

(* ---- chord codes ----------------------------------------------------------------------- *)
(* active chords occupy slots; a chord's action is held under the code of its slot *)
Definition slot_code (s : nat) : N := (K_CHORD_1 + N.of_nat s)%N.
(* s is the first free slot *)
Definition free_slot (k : kbd) (s : nat) : Prop :=
  (exists a, nth_error (k_achords k) s = Some a /\ ac_active a = false)
  /\ forall j a, j < s -> nth_error (k_achords k) j = Some a -> ac_active a = true.
(* kx is k with slot s taken by chord ch of layer i, whose action is held under the
   slot's code, after evs were struck *)
Definition chord_noted (k : kbd) (evs : list kev) (s : nat) (ch : chord) (i : nat) (kx : kbd) : Prop :=
  exists j q ts, j < length (k_cache k) /\ ce_code (nth j (k_cache k) zero_ce) = 0%N /\ timers_of k evs ts
    /\ kx = set_k_cache (upd j (mkCe (slot_code s) (ch_d ch) i 0) (k_cache k))
              (set_k_achords (upd s (mkAc true ch i) (k_achords k)) (set_k_chord q (set_k_timeouts ts k))).
(* k' is kb with nothing undecided about chords and the timers up to [now] dropped *)
Definition at_rest (now : Z) (c : config) (kb k' : kbd) : Prop :=
  exists q, h_state q = CsInactive
    /\ k' = set_k_timeouts (filter (fun t => (now <? t)%Z) (k_timeouts kb)) (set_k_chord q (set_k_cfg c kb)).

(* [fires k evs s ch i t extra now k']: the keys evs, the last of them at time t, were
   struck without effect; then the action of chord ch of layer i is pressed, once, under
   the code of slot s; then the keys [extra] are processed as if there were no chords; k'
   is the result *)
Definition fires (k : kbd) (evs : list kev) (s : nat) (ch : chord) (i : nat) (t : Z) (extra : list kev) (now : Z)
  (k' : kbd) : Prop :=
  exists kx k1 kb d,
    chord_noted k evs s ch i kx
    /\ do_desc kx (slot_code s) (ch_d ch) i true t = Ok k1
    /\ outcome (no_chords (set_k_timeouts (filter (fun x => (t <? x)%Z) (k_timeouts k1)) k1)) extra (Ok (kb, d))
    /\ at_rest now (k_cfg k) kb k'.
(* [given_up k evs e now k']: the keys evs were struck without effect, then they and the
   events e are processed as if there were no chords; k' is the result *)
Definition given_up (k : kbd) (evs e : list kev) (now : Z) (k' : kbd) : Prop :=
  exists ts kb d, timers_of k evs ts
    /\ outcome (no_chords (set_k_timeouts ts k)) (evs ++ e) (Ok (kb, d)) /\ at_rest now (k_cfg k) kb k'.

(* [awaits_hold k evs i ch extra since]: from time [since] on the chord is only waited for
   to be held long enough: either no other chord is possible, or the time for a longer one
   is over *)
Definition awaits_hold (k : kbd) (evs : list kev) (i : nat) (ch : chord) (extra : list kev) (since : Z) : Prop :=
  (exists p e, evs = p ++ [e] /\ hopeful k p /\ ~ begun k evs /\ winner k evs i ch /\ extra = []
     /\ (0 < c_chord_hold (k_cfg k))%Z /\ since = ev_time e)
  \/ (hopeful k evs /\ longest k evs i ch extra /\ (c_chord_interkey (k_cfg k) < c_chord_hold (k_cfg k))%Z
     /\ since = last_time evs + c_chord_interkey (k_cfg k))%Z.

(* ---- the chord as written in the configuration ------------------------------------------ *)
(* no chord of an active layer but chord ch of layer i has all of its keys *)
Definition unambiguous (k : kbd) (i : nat) (ch : chord) : Prop :=
  layer_active k i /\ ch_keys ch <> []
  /\ (exists pre post, ly_chords (layer_of k i) = pre ++ ch :: post
        /\ Forall (fun c => ~ incl (ch_keys ch) (ch_keys c)) (pre ++ post))
  /\ forall j c, j <> i -> chord_at k j c -> ~ incl (ch_keys ch) (ch_keys c).

(* ---- a chord that has fired ---------------------------------------------------------------- *)
(* slot s is taken by a chord with action d of layer i, and its key x has not been
   released *)
Definition in_slot (k : kbd) (s : nat) (x : N) (d : desc) (i : nat) : Prop :=
  exists ks, nth_error (k_achords k) s = Some (mkAc true (mkChord ks d) i) /\ In x ks.
(* ... and it is the only such key *)
Definition last_in_slot (k : kbd) (s : nat) (x : N) : Prop :=
  exists a, nth_error (k_achords k) s = Some a /\ ac_active a = true /\ In x (ch_keys (ac_chord a))
    /\ forall y, In y (ch_keys (ac_chord a)) -> y = x \/ y = 0%N.
(* the chord of the first slots does not have the key *)
Definition first_slot (k : kbd) (s : nat) (x : N) : Prop :=
  forall j a, j < s -> nth_error (k_achords k) j = Some a -> ac_active a = true -> ~ In x (ch_keys (ac_chord a)).

(* everything that can happen while key x of the chord in slot s is down: any batches of
   events other than the release of x, and live rebinds.  (No keyboard sends the code of a
   slot.) *)
Definition not_freeing (s : nat) (x : N) (e : kev) : Prop :=
  ev_code e <> slot_code s /\ ~ (ev_code e = x /\ ev_pressed e = false).
Inductive during (G : config -> Prop) (s : nat) (x : N) : kbd -> kbd -> Prop :=
| du_refl k : during G s x k k
| du_events k fuel evs k1 t k2 :
    Forall (not_freeing s x) evs -> kbd_process_events fuel k evs = Ok (k1, t) ->
    during G s x k1 k2 -> during G s x k k2
| du_eval k exp k1 ok k2 :
    kbd_eval k exp = Ok (k1, ok) -> G (k_cfg k1) -> during G s x k1 k2 -> during G s x k k2.

(* the keys ks are struck, in any order, each less than [gap] ms after the one before *)
Definition struck (ks : list N) (gap : Z) (evs : list kev) : Prop :=
  Permutation (map ev_code evs) ks /\ spaced gap evs.
(* there is room for one more active chord, whose code is not in use, and one more key *)
Definition room_for_chord (k : kbd) (s : nat) : Prop := free_slot k s /\ unheld k (slot_code s) /\ has_room k.
