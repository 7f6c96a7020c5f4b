(* C45 (listeners), C52 (the keyboards of the daemon). *)
From Coq Require Import String.
From Verif Require Import Base Lib Types Keys Kbd Str Config Match Outside Hist SpecHist SpecMods WfHist PropWf Device Daemon SpecDaemon DaemonProofs EntryProofs ListenProofs PropDaemon.
Local Open Scope list_scope.
Local Open Scope N_scope.
Local Notation length := List.length.

Lemma handler_listen fuel wr con m x g ts d d' t : event_handler fuel wr (EvClient con m x g) ts d = Ok (d', t) ->
  i_type m = IListen -> ~ In con (d_lst d) -> In con (d_lst d') ->
  exists d1, add_listener wr con (set_d_times ts (Z.max 0 (d_timeout d - (ts - d_last d))) d) = Ok d1 /\
             d' = set_d_times ts (Z.max 0 (d_timeout d - (ts - d_last d))) d1.
Proof.
  intros H Hm Hn Hi. unfold event_handler in H. cbv beta zeta in H. unfold handle_client in H. rewrite Hm in H.
  destruct (4096 <=? i_sz m).
  { cbn [bind] in H. apply Ok_inj in H. apply pair_equal_spec in H as [<- _]. elim (Hn Hi). }
  destruct (1000000 <? i_timeout m).
  { cbn [bind] in H. apply Ok_inj in H. apply pair_equal_spec in H as [<- _]. elim (Hn Hi). }
  destruct (add_listener _ _ _) as [d1| | |] eqn:E; cbn [bind] in H; try discriminate H.
  apply Ok_inj in H. apply pair_equal_spec in H as [<- _]. exists d1. auto.
Qed.

(* ---- C45 ---------------------------------------------------------------------------- *)
(* Who is accepted as a listener while there is an active keyboard is told its
   layout and then its active layers. *)
Theorem C45_greeting : forall fuel wr con m x g ts d d' t p k,
  event_handler fuel wr (EvClient con m x g) ts d = Ok (d', t) -> i_type m = IListen ->
  ~ In con (d_lst d) -> In con (d_lst d') -> d_active d = Some p -> deref d p = Ok k ->
  inbox con (d_out d') = inbox con (d_out d) ++ (if wr (d_nw d) then [fst (greeting k)] else []) ++ snd (greeting k).
Proof.
  intros fuel wr con m x g ts d d' t p k H Hm Hn Hi Hp Hk.
  destruct (handler_listen _ _ _ _ _ _ _ _ _ _ H Hm Hn Hi) as (d1 & H1 & ->).
  exact (listener_told wr con _ d1 p k H1 Hn Hi Hp Hk).
Qed.
(* From then on, as long as it stays connected and nothing is reloaded, it is told
   exactly the activations and deactivations of all keyboards, in order: there is
   an interleaving of what the engines did since (log) such that the new messages
   are the announcements of log. *)
Theorem C45_stream : forall fuel wr l con d d', runs fuel wr l -> was l d -> short_names (d_ents d) ->
  (count_occ Nat.eq_dec (d_lst d) con <= 1)%nat -> later fuel wr (connected con) d d' -> In con (d_lst d') ->
  exists log,
    inbox con (d_out d') = inbox con (d_out d) ++ texts_of (d_ents d) log /\
    length (d_ents d') = length (d_ents d) /\
    forall j k k', nth_error (d_ents d) j = Some k -> nth_error (d_ents d') j = Some k' ->
      k_out k' = rev (effects j log) ++ k_out k.
Proof.
  intros fuel wr l con d d' R W Hs Hc Hl Hi.
  assert (N : named d).
  { split; [exact Hs|]. destruct (was_seen _ _ _ _ _ (runs_entries _ _ _ R) W) as [_ F].
    eapply Forall_impl; [|exact F]. intros k [_ (text & c & _ & Hr)]. eapply reach_origin; eauto. }
  destruct (later_told _ _ _ _ _ Hl N) as (_ & log & [_ T] & G1 & G2). exists log. split; [now apply T|].
  split; [exact G1|]. intros j k k' A B. now destruct (G2 _ _ _ A B).
Qed.
(* With one keyboard: the messages are the announcements of its new effects. *)
Theorem C45_stream_one : forall fuel wr l con d d' k k', runs fuel wr l -> was l d -> short_names (d_ents d) ->
  (count_occ Nat.eq_dec (d_lst d) con <= 1)%nat -> later fuel wr (connected con) d d' -> In con (d_lst d') ->
  d_ents d = [k] -> d_ents d' = [k'] ->
  exists new, k_out k' = rev new ++ k_out k /\
    inbox con (d_out d') = inbox con (d_out d) ++ flat_map (announce (k_cfg k)) new.
Proof.
  intros fuel wr l con d d' k k' R W Hs Hc Hl Hi Ek Ek'.
  destruct (C45_stream fuel wr l con d d' R W Hs Hc Hl Hi) as (log & A & _ & B). exists (effects 0 log). split.
  - apply (B 0%nat); rewrite ?Ek, ?Ek'; reflexivity.
  - rewrite A, Ek. now rewrite texts_single.
Qed.
(* Counting + and - per layer, greeting included, gives the activation count, for a
   layer that was active at most once at the connection. *)
Theorem C45_count : forall fuel wr l con m x g ts d d1 t d' k k' p text c clk i, runs fuel wr l -> was l d ->
  d_ents d = [k] -> d_active d = Some p -> fst p = d_gen d ->
  config_parse text = Ok (Some c) -> history c clk k -> short_names [k] ->
  event_handler fuel wr (EvClient con m x g) ts d = Ok (d1, t) -> i_type m = IListen ->
  ~ In con (d_lst d) -> In con (d_lst d1) ->
  later fuel wr (fun ev => connected con ev /\ unbinding ev) d1 d' -> In con (d_lst d') -> d_ents d' = [k'] ->
  (0 < i < length (c_layers (k_cfg k)))%nat -> ~ layout (k_cfg k) i -> sole (k_cfg k) i -> l_active (k_ls k i) <= 1 ->
  exists new, inbox con (d_out d') = inbox con (d_out d) ++ new /\
    (Z.of_N (l_active (k_ls k' i)) =
     (Z.of_nat (copies (plus_msg (k_cfg k) i) new) - Z.of_nat (copies (minus_msg (k_cfg k) i) new)) mod 256)%Z.
Proof.
  intros fuel wr l con m x g ts d d1 t d' k k' p text c clk i R W Ek Hp Hg Hc Hh Hs He Hm Hn Hi Hl Hi' Ek' Hix Hlay Hsole Hact.
  destruct (was_seen _ _ _ _ _ (runs_entries _ _ _ R) W) as [_ F].
  assert (Hk : deref d p = Ok k).
  { destruct (C51_active _ _ _ _ _ R W Hp) as [[k0 E0]|B]; [|lia]. rewrite E0. f_equal.
    apply deref_in in E0. rewrite Ek in E0. destruct E0 as [E0|[]]. now symmetry. }
  pose proof (C45_greeting _ _ _ _ _ _ _ _ _ _ _ _ He Hm Hn Hi Hp Hk) as G.
  destruct (handler_listen _ _ _ _ _ _ _ _ _ _ He Hm Hn Hi) as (d2 & Ha & E1).
  assert (Se : same_ents d d1).
  { subst d1. assert (X : same_ents (set_d_times ts (Z.max 0 (d_timeout d - (ts - d_last d))) d) d2).
    { revert Ha. apply listener_keeps; intros; try (repeat split; fail). eapply same_ents_trans; eauto. }
    exact X. }
  destruct Se as (S1 & _ & S2 & _).
  assert (N : named d1).
  { unfold named. rewrite S1. split; [rewrite Ek; exact Hs|].
    eapply Forall_impl; [|exact F]. intros k0 [_ (text0 & c0 & _ & Hr)]. eapply reach_origin; eauto. }
  assert (O : old d1).
  { unfold old. rewrite S1, S2. eapply Forall_impl; [|exact F]. intros k0 [A _]. exact A. }
  assert (C1 : (cnt con (d_lst d1) <= 1)%nat).
  { subst d1. cbn [d_lst set_d_times]. assert (Z0 : cnt con (d_lst d) = 0%nat) by (apply (count_occ_not_In Nat.eq_dec); exact Hn).
    unfold add_listener in Ha. cbn [d_lst d_active set_d_times] in Ha. destruct (Nat.eqb (length _) _).
    - apply Ok_inj in Ha. subst d2. cbn [vemit d_lst set_d_out set_d_times]. lia.
    - rewrite Hp in Ha. destruct (deref _ p) as [k0| | |]; cbn [bind] in Ha; try discriminate Ha.
      unfold write_msg in Ha. match type of Ha with context [send_layers ?a ?b ?c ?d ?e] => destruct (send_layers a b c d e) as [d3 o3] eqn:E3 end.
      destruct o3.
      + apply send_layers_spec in E3 as [E3 _]. apply Ok_inj in Ha. subst d2. cbn [d_lst set_d_lst]. rewrite E3.
        cbn [vemit d_lst set_d_out set_d_nw set_d_times]. rewrite cnt_app, cnt_one, Z0. destruct (Nat.eqb _ _); lia.
      + exfalso. apply Ok_inj in Ha. subst d2. apply Hn. cbn [vemit d_lst set_d_out set_d_times] in Hi.
        match type of E3 with send_layers ?a ?b ?c ?d ?e = _ => assert (X : d_lst d3 = d_lst e) by (apply (send_false a b c d e d3); exact E3) end.
        rewrite X in Hi. exact Hi. }
  destruct (later_told fuel wr con d1 d' (later_weaken _ _ _ (connected con) _ _ (fun ev H => proj1 H) Hl) N) as (_ & log & [_ T] & G1 & G2).
  destruct (later_history _ _ _ _ _ Hl O) as (_ & _ & Hh').
  rewrite S1, Ek, Ek' in *. specialize (T C1 Hi'). specialize (Hh' 0%nat k k' eq_refl eq_refl c clk Hh).
  destruct (G2 0%nat k k' eq_refl eq_refl) as [Go Gn]. rewrite texts_single in T.
  eexists. split; [rewrite T, G, <- app_assoc; reflexivity|].
  assert (Hl0 : is_layout (ltypei (k_cfg k) i) = false).
  { unfold layout in Hlay. unfold ltypei. destruct (ly_type _); auto. now elim Hlay. }
  assert (Hlay' : ~ layout (k_cfg k') i).
  { destruct Gn as [_ Gn]. destruct (Gn i) as [_ Gi]. unfold layout. rewrite Hl0 in Gi. intros X. unfold ltypei in Gi. rewrite X in Gi. discriminate Gi. }
  pose proof (C45_messages_count text c clk k i Hc Hh Hlay) as M1.
  pose proof (C45_messages_count text c clk k' i Hc Hh' Hlay') as M2.
  destruct (greeting_copies k i Hsole Hl0 Hix Hact) as [P1 P2].
  rewrite !copies_app, P1, P2.
  rewrite (announce_copies (k_cfg k) i true (effects 0 log) Hsole Hl0 : copies (plus_msg (k_cfg k) i) _ = _).
  rewrite (announce_copies (k_cfg k) i false (effects 0 log) Hsole Hl0 : copies (minus_msg (k_cfg k) i) _ = _).
  assert (Q : forall b : bool, copies ((if b then 43 else 45) :: lname (k_cfg k) i ++ [10]) (if wr (d_nw d) then [fst (greeting k)] else []) = 0%nat).
  { intros b. destruct (wr (d_nw d)); [|reflexivity]. rewrite copies_one. destruct (list_eq_dec _ _ _) as [E|E]; [|reflexivity].
    unfold greeting in E. cbn [fst] in E. injection E as E _. destruct b; discriminate E. }
  rewrite (Q true : copies (plus_msg (k_cfg k) i) _ = _), (Q false : copies (minus_msg (k_cfg k) i) _ = _). rewrite Go in M2. rewrite !messages_app, !messages_rev in M2. rewrite M2.
  revert M1. generalize (l_active (k_ls k i)) as a. clear.
  generalize (messages i true (effects 0 log)), (messages i false (effects 0 log)), (messages i true (k_out k)), (messages i false (k_out k)).
  intros u v w z a M1. Z.to_euclidean_division_equations. lia.
Qed.

(* q and w both activate a layer "one" *)
Definition listen_text (name : string) : str :=
  concat (map (fun l => bs l ++ [10]) ["[ids]"; "*"; "[main]"; String.append (String.append "q = layer(" name) ")";
    String.append (String.append "w = layer(" name) ")"; String.append (String.append "[" name) "]"]%string).
Definition listen_msg : imsg := mkMsg IListen 0 [] 0.
Definition listen (con : nat) : event := EvClient con listen_msg [] (fun _ => true).
Definition press (c : N) (v : N) : event := EvDev 0 (mkDe DevKey c v 0 0).
Definition boxb (a b : list str) : bool := if list_eq_dec (list_eq_dec N.eq_dec) a b then true else false.
Lemma boxb_ok a b : boxb a b = true -> a = b.
Proof. unfold boxb. destruct (list_eq_dec _ _ _); [auto|discriminate]. Qed.
Definition line (s : string) : str := bs s ++ [10].

(* calls of the handler one after the other *)
Fixpoint chain (evs : list (event * Z)) (d : dstate) : res dstate :=
  match evs with
  | [] => Ok d
  | (ev, ts) :: r => '(d1, _) <- event_handler 50 all_ok ev ts d ;; chain r d1
  end.
Lemma chain_later ok evs : forall d d', Forall (fun x => ok (fst x)) evs -> chain evs d = Ok d' -> later 50 all_ok ok d d'.
Proof.
  intros d d' F H. assert (G : forall d0, later 50 all_ok ok d0 d -> later 50 all_ok ok d0 d'); [|apply G; apply la_now].
  revert d H F. induction evs as [|[ev ts] r IH]; cbn [chain]; intros d H F d0 G.
  - apply Ok_inj in H. now subst.
  - destruct (event_handler 50 all_ok ev ts d) as [[d1 t]| | |] eqn:E; cbn [bind] in H; try discriminate H.
    apply (IH d1 H (Forall_inv_tail F) d0). eapply la_call; [exact G|exact (Forall_inv F)|exact E].
Qed.
(* A run, the connection of client 9, and what happens then. *)
Lemma listen_ex name rs evs (P : dstate -> dstate -> dstate -> bool) : Forall (fun r => r_added r = []) rs ->
  Forall (fun x => connected 9 (fst x) /\ unbinding (fst x)) evs ->
  (match simulate 50 all_ok [listen_text name] two 1 rs with
   | Ok l => match event_handler 50 all_ok (listen 9) 100 (lp_d l) with
             | Ok (d1, _) => match chain evs d1 with Ok d' => P (lp_d l) d1 d' | _ => false end
             | _ => false end
   | _ => false end) = true ->
  exists l d1 t d', runs 50 all_ok l /\ event_handler 50 all_ok (listen 9) 100 (lp_d l) = Ok (d1, t) /\
    later 50 all_ok (fun ev => connected 9 ev /\ unbinding ev) d1 d' /\ P (lp_d l) d1 d' = true.
Proof.
  intros F1 F2 H. destruct (simulate 50 all_ok [listen_text name] two 1 rs) as [l| | |] eqn:E; try discriminate H.
  destruct (event_handler 50 all_ok (listen 9) 100 (lp_d l)) as [[d1 t]| | |] eqn:E1; try discriminate H.
  destruct (chain evs d1) as [d'| | |] eqn:E2; try discriminate H.
  exists l, d1, t, d'. split; [exact (simulate_runs 50 all_ok [listen_text name] two 1 rs l two_unbound F1 E)|].
  split; [exact E1|]. split; [|exact H]. exact (chain_later _ evs d1 d' F2 E2).
Qed.
Ltac quiet := repeat (apply Forall_cons; [split; [exact Logic.I|exact Logic.I]|]); apply Forall_nil.
Definition count6 (d : dstate) : N := match d_ents d with k :: _ => l_active (k_ls k 6) | [] => 0 end.

(* q is held at the connection; w is pressed, q released *)
Example C45_ex : exists l d1 t d', runs 50 all_ok l /\ event_handler 50 all_ok (listen 9) 100 (lp_d l) = Ok (d1, t) /\
  later 50 all_ok (fun ev => connected 9 ev /\ unbinding ev) d1 d' /\
  inbox 9 (d_out d') = [line "/main"; line "+one"; line "+one"; line "-one"] /\ count6 d' = 1.
Proof.
  destruct (listen_ex "one" [reading 1 5 [key 16 1] []] [(press 17 1, 110%Z); (press 16 0, 120%Z)]
    (fun d d1 d' => boxb (inbox 9 (d_out d')) [line "/main"; line "+one"; line "+one"; line "-one"] && (count6 d' =? 1)))
    as (l & d1 & t & d' & R & E & La & H).
  - no_added.
  - quiet.
  - vm_compute. reflexivity.
  - exists l, d1, t, d'. rewrite andb_true_iff in H. destruct H as [H1 H2]. apply boxb_ok in H1. apply N.eqb_eq in H2. auto.
Qed.
(* q and w are held at the connection; q is released.  The messages say that the
   layer is inactive. *)
Theorem C45_twice_refuted : exists l d1 t d', runs 50 all_ok l /\ event_handler 50 all_ok (listen 9) 100 (lp_d l) = Ok (d1, t) /\
  later 50 all_ok (fun ev => connected 9 ev /\ unbinding ev) d1 d' /\
  inbox 9 (d_out d') = [line "/main"; line "+one"; line "-one"] /\ count6 d' = 1.
Proof.
  destruct (listen_ex "one" [reading 1 5 [key 16 1; key 17 1] []] [(press 16 0, 120%Z)]
    (fun d d1 d' => boxb (inbox 9 (d_out d')) [line "/main"; line "+one"; line "-one"] && (count6 d' =? 1)))
    as (l & d1 & t & d' & R & E & La & H).
  - no_added.
  - quiet.
  - vm_compute. reflexivity.
  - exists l, d1, t, d'. rewrite andb_true_iff in H. destruct H as [H1 H2]. apply boxb_ok in H1. apply N.eqb_eq in H2. auto.
Qed.
(* Before the first event of a keyboard the listener is not told the layout. *)
Theorem C45_early_refuted : exists l d1 t d', runs 50 all_ok l /\ event_handler 50 all_ok (listen 9) 100 (lp_d l) = Ok (d1, t) /\
  later 50 all_ok (fun ev => connected 9 ev /\ unbinding ev) d1 d' /\ length (d_ents (lp_d l)) = 1%nat /\
  d_lst d1 = [9%nat] /\ inbox 9 (d_out d') = [line "+one"].
Proof.
  destruct (listen_ex "one" [reading 1 5 [] []] [(press 16 1, 120%Z)]
    (fun d d1 d' => Nat.eqb (length (d_ents d)) 1 && (match d_lst d1 with [9%nat] => true | _ => false end) && boxb (inbox 9 (d_out d')) [line "+one"]))
    as (l & d1 & t & d' & R & E & La & H).
  - no_added.
  - quiet.
  - vm_compute. reflexivity.
  - exists l, d1, t, d'. rewrite !andb_true_iff in H. destruct H as [[H1 H2] H3]. apply boxb_ok in H3. apply Nat.eqb_eq in H1.
    destruct (d_lst d1) as [|x [|y r]]; try discriminate H2.
    + repeat (split; [assumption|]). split; [|exact H3]. do 10 (destruct x as [|x]; try discriminate H2). reflexivity.
    + do 10 (destruct x as [|x]; try discriminate H2).
Qed.
(* A name of 64 characters: the line of an activation does not end (a NUL in place
   of the newline). *)
Definition long : string := "aaaaaaaaaaaaaaaabbbbbbbbbbbbbbbbccccccccccccccccdddddddddddddddd".
Theorem C45_long_name_refuted : exists l d1 t d', runs 50 all_ok l /\ event_handler 50 all_ok (listen 9) 100 (lp_d l) = Ok (d1, t) /\
  later 50 all_ok (fun ev => connected 9 ev /\ unbinding ev) d1 d' /\ inbox 9 (d_out d') = [43 :: bs long ++ [0]].
Proof.
  destruct (listen_ex long [reading 1 5 [] []] [(press 16 1, 120%Z)]
    (fun d d1 d' => boxb (inbox 9 (d_out d')) [43 :: bs long ++ [0]]))
    as (l & d1 & t & d' & R & E & La & H).
  - no_added.
  - quiet.
  - vm_compute. reflexivity.
  - exists l, d1, t, d'. apply boxb_ok in H. auto.
Qed.
Definition C45_all := (C45_greeting, C45_stream, C45_stream_one, C45_count, C45_ex, C45_twice_refuted, C45_early_refuted, C45_long_name_refuted).
Print Assumptions C45_all.

(* ---- C52 ---------------------------------------------------------------------------- *)
(* Every keyboard of the daemon is, at any moment, in a state reached from a parsed
   file by events of the engine, live binds and what happens to other keyboards: the
   theorems about such states ([reach]) apply to the daemon. *)
Theorem C52_keyboards : forall fuel wr l d k, runs fuel wr l -> was l d -> In k (d_ents d) ->
  exists text c, config_parse text = Ok (Some c) /\ reach (fun _ => True) c k.
Proof.
  intros fuel wr l d k R W Hk. destruct (was_seen _ _ _ _ _ (runs_entries _ _ _ R) W) as [_ F].
  rewrite Forall_forall in F. now destruct (F k Hk).
Qed.
(* the clock of activations is shared *)
Theorem C52_clock : forall fuel wr l d k, runs fuel wr l -> was l d -> In k (d_ents d) -> (k_clock k <= d_clock d)%Z.
Proof.
  intros fuel wr l d k R W Hk. destruct (was_seen _ _ _ _ _ (runs_entries _ _ _ R) W) as [_ F].
  rewrite Forall_forall in F. now destruct (F k Hk).
Qed.
Example C52_ex : exists l k, runs 50 all_ok l /\ In k (d_ents (lp_d l)) /\ l_active (k_ls k 6) = 2.
Proof.
  destruct (listen_ex "one" [reading 1 5 [key 16 1; key 17 1] []] [] (fun d _ _ => count6 d =? 2)) as (l & _ & _ & _ & R & _ & _ & H).
  - no_added.
  - quiet.
  - vm_compute. reflexivity.
  - exists l. unfold count6 in H. destruct (d_ents (lp_d l)) as [|k r]; [discriminate H|]. exists k.
    split; [exact R|]. split; [now left|now apply N.eqb_eq].
Qed.
Definition C52_all := (C52_keyboards, C52_clock, C52_ex).
Print Assumptions C52_all.
