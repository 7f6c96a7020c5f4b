(* C62: the layer indicator. *)
From Coq Require Import String.
From Verif Require Import Base Lib Types Keys Kbd Str Config Match Outside Hist SpecHist SpecMods WfHist Device Daemon SpecDaemon DaemonProofs EntryProofs ListenProofs PropDaemon SpecLed LedProofs.
Local Open Scope list_scope.
Local Open Scope N_scope.
Local Notation length := List.length.

Lemma was_settled fuel wr l d : runs fuel wr l -> was l d -> Forall settled (d_ents d).
Proof.
  intros R W. destruct (was_seen _ _ _ _ _ (runs_entries _ _ _ R) W) as [_ F].
  eapply Forall_impl; [|exact F]. intros k [_ (text & c & _ & Hr)]. eapply reach_settled; eauto.
Qed.
Lemma lamp_shows k k' new : lamp k k' new -> flags new = [] -> (layer_on k' <-> layer_on k).
Proof. unfold lamp. intros H E. rewrite E in H. rewrite <- !indicator_on, H. reflexivity. Qed.

(* A device of a keyboard with layer_indicator: one write for each announcement of a
   layer by that keyboard; all writes go to LED 1; the last one agrees with the layers
   active now; without a write nothing was announced and there is nothing new to show.
   Without layer_indicator nothing is written. *)
Theorem C62_writes : forall fuel wr l i p d d' k, runs fuel wr l -> was l d ->
  keyboard_of d i = Some p -> deref d p = Ok k -> along fuel wr i d d' ->
  exists k' new ws, keyboard_of d' i = Some p /\ deref d' p = Ok k' /\ k_out k' = new ++ k_out k /\
    leds i (d_out d') = ws ++ leds i (d_out d) /\
    if c_indicator (k_cfg k) then
      length ws = length (notes new) /\ Forall (fun w => fst w = 1) ws /\
      (ws <> [] -> shows i d' k') /\ (ws = [] -> (layer_on k' <-> layer_on k))
    else ws = [].
Proof.
  intros fuel wr l i p d d' k R W Hi Hk Ha. destruct (LD_along i fuel wr d d' Ha (was_settled _ _ _ _ R W)) as (_ & K & M).
  rewrite Hi in M. destruct (M k Hk) as (k' & new & D & _ & I & T & S & P). exists k', new, (values (k_cfg k) (flags new)).
  split; [congruence|]. split; [exact D|]. split; [exact T|]. split; [exact S|]. unfold values in *.
  destruct (c_indicator (k_cfg k)); [|reflexivity]. rewrite map_length. split; [apply flags_notes|]. split.
  - apply Forall_forall. intros w Hw. apply in_map_iff in Hw as (f & <- & _). reflexivity.
  - split.
    + intros Hn. unfold lamp in P. destruct (flags new) as [|f fs] eqn:E; [now elim Hn|]. cbn [map app] in S.
      eexists _, _. split; [exact S|]. subst f. rewrite <- indicator_on. destruct (indicator k'); [left|right]; split; auto.
    + intros Hn. eapply lamp_shows; [exact P|]. destruct (flags new); [reflexivity|discriminate Hn].
Qed.
(* Once the LED agrees with the layers it always does. *)
Theorem C62_follows : forall fuel wr l i p d d' k k', runs fuel wr l -> was l d ->
  keyboard_of d i = Some p -> deref d p = Ok k -> c_indicator (k_cfg k) = true -> along fuel wr i d d' -> deref d' p = Ok k' ->
  shows i d k \/ (exists new, k_out k' = new ++ k_out k /\ notes new <> []) -> shows i d' k'.
Proof.
  intros fuel wr l i p d d' k k' R W Hi Hk Hc Ha Hk' H.
  destruct (C62_writes fuel wr l i p d d' k R W Hi Hk Ha) as (k1 & new & ws & _ & D & T & S & C). rewrite Hc in C.
  assert (k1 = k') by congruence. subst k1. destruct C as (C1 & _ & C2 & C3). destruct ws as [|w ws]; [|apply C2; discriminate].
  destruct H as [(v & r & E & V)|(n & E & N)].
  - exists v, r. rewrite S. split; [exact E|]. specialize (C3 eq_refl). tauto.
  - rewrite T in E. apply app_inv_tail in E. subst n. destruct (notes new); [now elim N|discriminate C1].
Qed.
(* A device without a keyboard: its LEDs are left alone. *)
Theorem C62_unbound : forall fuel wr l i d d', runs fuel wr l -> was l d -> keyboard_of d i = None -> along fuel wr i d d' ->
  leds i (d_out d') = leds i (d_out d).
Proof.
  intros fuel wr l i d d' R W Hi Ha. destruct (LD_along i fuel wr d d' Ha (was_settled _ _ _ _ R W)) as (_ & K & M).
  now rewrite Hi in M.
Qed.

(* ---- an example and what the indicator does not do -------------------------------------- *)
Definition led_text : str := Eval vm_compute in
  concat (map (fun l => bs l ++ [10]) ["[ids]"; "*"; "[global]"; "layer_indicator = 1"; "[main]"; "q = layer(one)"; "w = toggle(one)"; "[one]"]%string).
Definition led_run (rs : list round) : res lstate := simulate 50 all_ok [led_text] two 1 rs.
Definition on6 (k : kbd) : bool := negb (l_active (k_ls k 6) =? 0).
Definition led_eq_dec (x y : N * N) : {x = y} + {x <> y}.
Proof. decide equality; apply N.eq_dec. Defined.
Definition ledsb (a b : list (N * N)) : bool := if list_eq_dec led_eq_dec a b then true else false.
Lemma ledsb_ok a b : ledsb a b = true -> a = b.
Proof. unfold ledsb. destruct (list_eq_dec _ _ _); [auto|discriminate]. Qed.
Definition layer_onb (k : kbd) : bool :=
  existsb (fun i => match ltypei (k_cfg k) i with LLayout => false | _ => active_layer k i end) (seq 1 (length (c_layers (k_cfg k)) - 1)).
Lemma layer_onb_ok k : layer_onb k = true <-> layer_on k.
Proof.
  unfold layer_onb, layer_on. rewrite existsb_exists. split.
  - intros (i & Hi & H). apply in_seq in Hi. exists i. split; [lia|]. destruct (ltypei (k_cfg k) i); try discriminate H; (split; [discriminate|exact H]).
  - intros (i & Hi & H1 & H2). exists i. split; [apply in_seq; lia|]. destruct (ltypei (k_cfg k) i); auto; now elim H1.
Qed.
(* device i belongs to a keyboard with layer_indicator, its LEDs were written ws, a layer is active: on *)
Definition led_is (i : nat) (d : dstate) (ws : list (N * N)) (on : bool) : bool :=
  match keyboard_of d i with
  | Some p => match deref d p with Ok k => c_indicator (k_cfg k) && Bool.eqb (layer_onb k) on && ledsb (leds i (d_out d)) ws | _ => false end
  | None => false
  end.
Lemma led_is_ok i d ws on : led_is i d ws on = true -> exists p k, keyboard_of d i = Some p /\ deref d p = Ok k /\
  c_indicator (k_cfg k) = true /\ (layer_on k <-> on = true) /\ leds i (d_out d) = ws.
Proof.
  unfold led_is. destruct (keyboard_of d i) as [p|]; [|discriminate]. destruct (deref d p) as [k| | |] eqn:Ek; try discriminate.
  intros H. apply andb_true_iff in H as [H H3]. apply andb_true_iff in H as [H1 H2]. apply eqb_prop in H2. apply ledsb_ok in H3.
  exists p, k. rewrite <- layer_onb_ok, H2. repeat (split; [first [assumption|reflexivity]|]). exact H3.
Qed.
Lemma led_ex (rs : list round) (P : dstate -> bool) : Forall (fun r => r_added r = []) rs ->
  (match led_run rs with Ok l => P (lp_d l) | _ => false end) = true -> exists l, runs 50 all_ok l /\ P (lp_d l) = true.
Proof.
  unfold led_run. intros F H. destruct (simulate 50 all_ok [led_text] two 1 rs) as [l| | |] eqn:E; try discriminate H.
  exists l. split; [|exact H]. exact (simulate_runs 50 all_ok [led_text] two 1 rs l two_unbound F E).
Qed.

Lemma plug_ex (devs : list device) (rs : list round) (r : round) (P : dstate -> bool) : Forall unbound devs ->
  Forall (fun r => r_added r = []) rs -> Forall (fun x => unbound (fst x)) (r_added r) ->
  (match simulate 50 all_ok [led_text] devs 1 rs with
   | Ok l => match loop_round 50 all_ok r l with Ok l' => P (lp_d l') | _ => false end
   | _ => false end) = true -> exists l, runs 50 all_ok l /\ P (lp_d l) = true.
Proof.
  intros Fd F Fa H. destruct (simulate 50 all_ok [led_text] devs 1 rs) as [l| | |] eqn:E; try discriminate H.
  destruct (loop_round 50 all_ok r l) as [l'| | |] eqn:E'; try discriminate H.
  exists l'. split; [|exact H]. eapply runs_round; [exact (simulate_runs 50 all_ok [led_text] devs 1 rs l Fd F E)|exact Fa|exact E'].
Qed.

(* q pressed on device 0 lights the LEDs of both devices; then its release *)
Definition led_release : event := EvDev 0 (mkDe DevKey 16 0 0 0).
Example C62_example : exists l d', runs 50 all_ok l /\ led_is 1 (lp_d l) [(1, 1)] true = true /\
  along 50 all_ok 1 (lp_d l) d' /\ led_is 1 d' [(1, 0); (1, 1)] false = true.
Proof.
  destruct (led_ex [reading 1 5 [key 16 1] []]
    (fun d => led_is 1 d [(1, 1)] true && match event_handler 50 all_ok led_release 9 d with Ok (d', _) => led_is 1 d' [(1, 0); (1, 1)] false | _ => false end))
    as (l & R & H).
  - no_added.
  - vm_compute. reflexivity.
  - apply andb_true_iff in H as [H1 H2]. destruct (event_handler 50 all_ok led_release 9 (lp_d l)) as [[d' t]| | |] eqn:E; try discriminate H2.
    exists l, d'. split; [exact R|]. split; [exact H1|]. split; [|exact H2].
    eapply al_call; [apply al_now| |exact E]. discriminate.
Qed.

(* A layer is toggled on, the configuration is reloaded: the LED stays lit though no
   layer is active. *)
Theorem C62_reload_refuted : exists l p k, runs 50 all_ok l /\ keyboard_of (lp_d l) 0 = Some p /\ deref (lp_d l) p = Ok k /\
  c_indicator (k_cfg k) = true /\ ~ layer_on k /\ leds 0 (d_out (lp_d l)) = [(1, 1)].
Proof.
  destruct (led_ex [reading 1 5 [key 17 1; key 17 0] [];
                    mkRound 5 9 (fun _ => []) [(7%nat, mkMsg IReload 0 [] 0, [led_text], fun _ => true)] []]
    (fun d => led_is 0 d [(1, 1)] false)) as (l & R & H).
  - no_added.
  - vm_compute. reflexivity.
  - apply led_is_ok in H as (p & k & A & B & C & D & E). exists l, p, k. repeat (split; [assumption|]). split; [|exact E].
    intros X. apply D in X. discriminate X.
Qed.
(* A keyboard plugged in while a layer is active: its LED is not set. *)
Theorem C62_plugged_refuted : exists l p k, runs 50 all_ok l /\ keyboard_of (lp_d l) 2 = Some p /\ deref (lp_d l) p = Ok k /\
  c_indicator (k_cfg k) = true /\ layer_on k /\ leds 0 (d_out (lp_d l)) = [(1, 1)] /\ leds 2 (d_out (lp_d l)) = [].
Proof.
  destruct (plug_ex [a_keyboard; a_keyboard] [reading 1 5 [key 17 1; key 17 0] []] (mkRound 5 9 (fun _ => []) [] [(a_keyboard, true)])
    (fun d => led_is 2 d [] true && ledsb (leds 0 (d_out d)) [(1, 1)])) as (l & R & H).
  - exact two_unbound.
  - no_added.
  - apply Forall_cons; [reflexivity|constructor].
  - vm_compute. reflexivity.
  - apply andb_true_iff in H as [X1 X2]. apply led_is_ok in X1 as (p & k & A & B & C & D & F). apply ledsb_ok in X2.
    exists l, p, k. repeat (split; [assumption|]). split; [now apply D|]. auto.
Qed.
(* The host switches the caps lock LED of the virtual keyboard off: so do the keyboards,
   whatever layer is active. *)
Definition virtual_keyboard : device := mkDev true false CAP_KEYBOARD true (bs "0fac:0ade") (mkAxes 0 0) None.
Theorem C62_host_refuted : exists l p k, runs 50 all_ok l /\ keyboard_of (lp_d l) 0 = Some p /\ deref (lp_d l) p = Ok k /\
  c_indicator (k_cfg k) = true /\ layer_on k /\ leds 0 (d_out (lp_d l)) = [(1, 0); (1, 1)].
Proof.
  destruct (plug_ex [a_keyboard; virtual_keyboard] [] (reading 1 5 [key 17 1; key 17 0] [REvent (mkIev 17 1 0)])
    (fun d => led_is 0 d [(1, 0); (1, 1)] true)) as (l & R & H).
  - apply Forall_cons; [reflexivity|apply Forall_cons; [reflexivity|constructor]].
  - no_added.
  - constructor.
  - vm_compute. reflexivity.
  - apply led_is_ok in H as (p & k & A & B & C & D & F).
    exists l, p, k. repeat (split; [assumption|]). split; [now apply D|exact F].
Qed.

Definition C62_all := (C62_writes, C62_follows, C62_unbound, C62_reload_refuted, C62_plugged_refuted, C62_host_refuted).
Print Assumptions C62_all.
