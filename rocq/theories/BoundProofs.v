(* Which configuration a device has at every moment: the proofs behind C65 and C66. *)
From Coq Require Import String ZArith Lia.
From Verif Require Import Base Lib Types Str Keys Kbd Config Match SpecText Device Daemon Identify SpecDaemon SpecIdentify
  Steps ParseWf Hist DaemonProofs EntryProofs TimelyProofs.
Local Open Scope list_scope.
Local Open Scope N_scope.
Local Notation length := List.length.

(* ---- an induction over rounds that sees the calls of the handler ---------------------------- *)
Section Rounds.
  Variables (fuel : nat) (wr : nat -> bool) (P : dstate -> list (dstate * event * Z * Z) -> Prop).
  Variables (Ev : event -> Prop) (fresh : device * bool -> Prop).
  Hypothesis P_handler : forall ev ts d d' t cs, Ev ev -> event_handler fuel wr ev ts d = Ok (d', t) -> P d cs -> P d' ((d, ev, ts, t) :: cs).
  Hypothesis P_open : forall i dv d cs, nth_error (d_devs d) i = Some dv -> P d cs ->
    P (set_d_devs (upd i (set_dv_open false dv) (d_devs d)) d) cs.
  Hypothesis P_same : forall i dv d cs, nth_error (d_devs d) i = Some dv -> P d cs -> P (set_d_devs (upd i dv (d_devs d)) d) cs.
  Hypothesis P_drop : forall d cs, P d cs -> P (set_d_devs (filter dv_open (d_devs d)) d) cs.
  Hypothesis P_add : forall dv g ts d d' t cs, fresh (dv, g) ->
    event_handler fuel wr (EvAdd (length (d_devs d)) g) ts (set_d_devs (d_devs d ++ [dv]) d) = Ok (d', t) -> P d cs ->
    P d' ((set_d_devs (d_devs d ++ [dv]) d, EvAdd (length (d_devs d)) g, ts, t) :: cs).
  Hypothesis Ev_in : Ev EvTimeout /\ (forall i de, Ev (EvDev i de)) /\ forall i, Ev (EvRemove i).
  Definition at_l (l : lstate) : Prop := P (lp_d l) (lp_calls l).
  Lemma call_at ev ts l l' : Ev ev -> call fuel wr ev ts l = Ok l' -> at_l l -> at_l l'.
  Proof using P_handler.
    unfold call. intros He H Hp. destruct (event_handler _ _ _ _ _) as [[d t]| | |] eqn:E; cbn [bind] in H; try discriminate H.
    apply Ok_inj in H. subst. unfold at_l. cbn [lp_d lp_calls]. eauto.
  Qed.
  Lemma calls_at evs : forall ts l l', Forall Ev evs -> calls fuel wr evs ts l = Ok l' -> at_l l -> at_l l'.
  Proof using P_handler.
    induction evs as [|e r IH]; cbn [calls]; intros ts l l' F H Hp; [apply Ok_inj in H; now subst|].
    destruct (call _ _ _ _ _) as [l1| | |] eqn:E; cbn [bind] in H; try discriminate H.
    apply call_at in E; [|exact (Forall_inv F)|exact Hp]. eapply IH; eauto. exact (Forall_inv_tail F).
  Qed.
  Lemma add_at devs : forall ts l l', add_devices fuel wr devs ts l = Ok l' -> Forall fresh devs -> at_l l -> at_l l'.
  Proof using P_add.
    induction devs as [|[dv g] r IH]; cbn [add_devices]; intros ts l l' H Hf Hp; [apply Ok_inj in H; now subst|].
    destruct (Nat.ltb _ 64); [|discriminate H].
    destruct (call _ _ _ _ _) as [l1| | |] eqn:E; cbn [bind] in H; try discriminate H.
    eapply IH; [exact H|exact (Forall_inv_tail Hf)|]. clear IH H. unfold call in E. cbn [lp_d lp_calls] in E.
    destruct (event_handler _ _ _ _ _) as [[d t]| | |] eqn:E1; cbn [bind] in E; try discriminate E.
    apply Ok_inj in E. subst l1. unfold at_l. cbn [lp_d lp_calls]. eapply P_add; [exact (Forall_inv Hf)|exact E1|exact Hp].
  Qed.
  Lemma read_device_at i rs : forall ts l l', read_device fuel wr i rs ts l = Ok l' -> at_l l -> at_l l'.
  Proof using P_handler P_open P_same Ev_in.
    destruct Ev_in as (_ & EvD & EvR).
    induction rs as [|r rs IH]; cbn [read_device]; intros ts l l' H Hp; [apply Ok_inj in H; now subst|].
    destruct (nth_error (d_devs (lp_d l)) i) as [dv|] eqn:En; [|discriminate H].
    destruct (device_read_event _ _ _) as [[de ret]| | |]; cbn [bind] in H; try discriminate H.
    assert (P1 : P (set_d_devs (upd i (match r with RError => set_dv_open false dv | _ => dv end) (d_devs (lp_d l))) (lp_d l)) (lp_calls l))
      by (destruct r; auto).
    destruct ret; cbn [negb] in H; [|apply Ok_inj in H; subst; exact P1].
    destruct (de_type de).
    6:{ destruct (call _ _ _ _ _) as [l2| | |] eqn:E; cbn [bind] in H; try discriminate H.
        apply Ok_inj in H. subst. apply call_at in E; [|apply EvR|exact P1].
        unfold at_l in *. cbn [lp_d lp_calls].
        destruct (nth_error (d_devs (lp_d l2)) i) as [x|] eqn:Ex.
        - rewrite (nth_error_nth _ _ _ Ex). apply P_open; auto.
        - replace (upd i _ _) with (d_devs (lp_d l2)); [destruct (lp_d l2); exact E|].
          symmetry. generalize (set_dv_open false
            (nth i (d_devs (lp_d l2)) (match r with RError => set_dv_open false dv | _ => dv end))) as y.
          intros y. clear -Ex. revert i Ex. generalize (d_devs (lp_d l2)) as ds.
          induction ds as [|a ds IH]; intros [|i] Ex; try reflexivity; [discriminate Ex|].
          unfold upd in *. cbn in *. f_equal. now apply IH. }
    all: destruct (panic_check _ _ _) as [s die]; destruct die; [apply Ok_inj in H; subst; exact P1|];
      destruct (call _ _ _ _ _) as [l2| | |] eqn:E; cbn [bind] in H; try discriminate H;
      apply call_at in E; [|apply EvD|exact P1]; eapply IH; eauto.
  Qed.
  Lemma read_devices_at reads is : forall ts l l', read_devices fuel wr reads is ts l = Ok l' -> at_l l -> at_l l'.
  Proof using P_handler P_open P_same Ev_in.
    induction is as [|i r IH]; cbn [read_devices]; intros ts l l' H Hp; [apply Ok_inj in H; now subst|].
    destruct (lp_dead l); [apply Ok_inj in H; now subst|].
    destruct (read_device _ _ _ _ _ _) as [l1| | |] eqn:E; cbn [bind] in H; try discriminate H.
    apply read_device_at in E; eauto.
  Qed.
  Lemma round_at r l l' : loop_round fuel wr r l = Ok l' -> Forall fresh (r_added r) -> Forall Ev (map client (r_clients r)) ->
    at_l l -> at_l l'.
  Proof using All.
    intros H Hf He Hp. apply round_cases in H as [[-> _]|(_ & l1 & l2 & E1 & E2 & H)]; [exact Hp|].
    assert (P1 : at_l l1).
    { destruct (andb _ _); [apply call_at in E1; auto; apply Ev_in|apply Ok_inj in E1; subst; exact Hp]. }
    apply read_devices_at in E2; [|exact P1].
    destruct H as [[_ ->]|(_ & l3 & l4 & E3 & E4 & ->)]; [exact E2|].
    apply calls_at in E3; [|exact He|exact E2]. apply add_at in E4; auto.
    unfold at_l. cbn [lp_d lp_calls]. apply P_drop, E4.
  Qed.
End Rounds.

(* ---- what most events leave alone ------------------------------------------------------------- *)
Definition origs (d : dstate) : list config := map k_orig (d_ents d).
Definition still (d d' : dstate) : Prop := d_gen d' = d_gen d /\ origs d' = origs d /\ d_devs d' = d_devs d.
Lemma still_refl d : still d d. Proof. repeat split. Qed.
Lemma still_trans a b c : still a b -> still b c -> still a c.
Proof. intros (A1 & A2 & A3) (B1 & B2 & B3). repeat split; congruence. Qed.
Lemma map_upd {A B} (f : A -> B) x : forall l i y, nth_error l i = Some y -> f x = f y -> map f (upd i x l) = map f l.
Proof.
  induction l as [|a l IH]; intros [|i] y H E; try discriminate H.
  - cbn in H. injection H as ->. unfold upd. cbn. now rewrite E.
  - unfold upd in *. cbn in *. f_equal. eapply IH; eauto.
Qed.
Lemma store_still p k k1 d : deref d p = Ok k -> k_orig k1 = k_orig k -> still d (store p k1 d).
Proof.
  unfold deref. destruct (Nat.eqb _ _); [|discriminate]. destruct (nth_error (d_ents d) (snd p)) as [x|] eqn:E; [|discriminate].
  intros H O. apply Ok_inj in H. subst x. repeat split. unfold origs. cbn [store d_ents set_d_ents]. eapply map_upd; eauto.
Qed.
Lemma eval_origs exp : forall ks ks' ok, eval_all ks exp = Ok (ks', ok) -> map k_orig ks' = map k_orig ks.
Proof.
  induction ks as [|k r IH]; cbn [eval_all]; intros ks' ok H; [apply Ok_inj in H; apply pair_equal_spec in H as [<- _]; reflexivity|].
  bstep H x E1. destruct x as [k1 o1]. bstep H x E2. destruct x as [r1 o2].
  apply Ok_inj in H. apply pair_equal_spec in H as [<- _]. cbn [map]. f_equal; [|eauto].
  apply kbd_eval_shape in E1 as [c' ->]. reflexivity.
Qed.
Lemma dsend_still c s d : still d (dsend_key c s d).
Proof. unfold dsend_key. repeat match goal with |- context [if ?b then _ else _] => destruct b end; repeat split. Qed.
Lemma quiet_handler fuel wr ev ts d d' t : event_handler fuel wr ev ts d = Ok (d', t) ->
  match ev with EvAdd _ _ => False | EvClient _ m _ _ => i_type m <> IReload | _ => True end -> still d d'.
Proof.
  intros H He. revert H.
  apply (handler_rel_all fuel wr still (fun _ => True) True False True (fun _ => False)); try (intros; repeat split; fail).
  - exact still_trans.
  - apply dsend_still.
  - intros p e a b x H. apply run_inv in H as (k & k1 & d1 & E1 & E2 & E3 & ->).
    apply events_orig in E2 as [_ E2]. cbn [k_orig set_k_clock] in E2.
    assert (S1 : still a d1).
    { eapply still_trans; [|eapply deliver_keeps; [| | | | | |exact E3]]; try (intros; repeat split; fail); [exact still_trans|apply dsend_still]. }
    eapply still_trans; [exact S1|]. apply (store_still p k); [|exact E2].
    destruct S1 as (A & B & _). apply deliver_ents in E3 as (C & _). cbn [d_ents set_d_clock] in C.
    unfold deref in *. now rewrite A, C.
  - intros p k x y a H _. eapply store_still; eauto.
  - intros con a b _ H. revert H. apply listener_keeps; try (intros; repeat split; fail). exact still_trans.
  - intros exp a ks ok _ H. apply eval_origs in H. repeat split. exact H.
  - intros texts grabs a b [].
  - intros i dv g a [].
  - destruct ev as [| | | |con m x g]; auto. unfold permitted. destruct (i_type m); auto.
Qed.

(* ---- the devices ---------------------------------------------------------------------------------- *)
Definition flags (dv : device) : N := device_flags (dv_caps dv).
Section Managed.
  Variable G : bool -> Prop.
  Definition managed (gen : nat) (cs : list config) (dv : device) : Prop :=
    (exists n, found_at n dv) /\
    if dv_virtual dv then dv_data dv = None /\ dv_grabbed dv = false
    else match lookup_config_ent cs (dv_id dv) (flags dv) with
         | Some i => dv_data dv = Some (gen, i) /\ dv_grabbed dv = true \/ dv_data dv = None /\ dv_grabbed dv = false /\ G false
         | None => dv_data dv = None /\ dv_grabbed dv = false
         end.
  (* known, not necessarily managed yet *)
  Definition known (dv : device) : Prop :=
    (exists n, found_at n dv) /\ (dv_virtual dv = true -> dv_data dv = None /\ dv_grabbed dv = false).
  Lemma managed_known gen cs dv : managed gen cs dv -> known dv.
  Proof. intros [A B]. split; [exact A|]. intros V. now rewrite V in B. Qed.
  Lemma recognised_known dv : recognised dv -> known dv.
  Proof.
    intros [n T]. split; [exists n, dv; split; [exact T|auto]|]. intros _. destruct T as [_ T]. revert T. unfold device_init.
    destruct (negb _); [discriminate|]. destruct (nd_name n); [|discriminate].
    match goal with |- context [match ?x with Some _ => _ | None => NotTaken false end] => destruct x as [ax|] end; [|discriminate].
    destruct (resolve_device_capabilities n) as [[[[c k] r] a]|]; [|discriminate].
    destruct (c =? 0); [discriminate|]. destruct (nd_id n) as [[v p]|]; [|discriminate].
    intros T. apply (f_equal (fun f => match f with Taken x => (dv_data x, dv_grabbed x) | _ => (None, false) end)) in T.
    cbn [dv_data dv_grabbed] in T. symmetry in T. now apply pair_equal_spec in T.
  Qed.
  Lemma manage_managed d g dv : G g -> known dv -> managed (d_gen d) (origs d) (manage_device d g dv).
  Proof.
    intros Hg [[n F] V]. unfold manage_device. destruct (dv_virtual dv) eqn:Ev.
    - split; [eauto|]. rewrite Ev. auto.
    - fold (origs d). fold (flags dv).
      assert (Q : forall b p, found_at n (set_dv_bound b p dv)) by (intros b p; destruct F as (dv0 & T & F); exists dv0; split; [exact T|exact F]).
      destruct (lookup_config_ent (origs d) (dv_id dv) (flags dv)) as [i|] eqn:El.
      + destruct (dv_grabbed dv || g) eqn:Eg; (split; [eauto|]); cbn [dv_virtual set_dv_bound dv_id dv_data dv_grabbed flags dv_caps];
          unfold flags; cbn [dv_caps set_dv_bound]; fold (flags dv); rewrite Ev, El; [now left|]. right. repeat split.
        apply Bool.orb_false_iff in Eg as [_ ->]. exact Hg.
      + split; [eauto|]. cbn [dv_virtual set_dv_bound dv_id dv_data dv_grabbed]. unfold flags. cbn [dv_caps set_dv_bound]. fold (flags dv). rewrite Ev, El. auto.
  Qed.
  Lemma manage_all_managed d grabs : (forall i, G (grabs i)) -> forall devs i, Forall known devs ->
    Forall (managed (d_gen d) (origs d)) (manage_all d grabs i devs).
  Proof.
    intros Hg. induction devs as [|dv r IH]; intros i F; cbn [manage_all]; constructor.
    - apply manage_managed; [apply Hg|exact (Forall_inv F)].
    - apply IH, (Forall_inv_tail F).
  Qed.
  Lemma managed_open gen cs b dv : managed gen cs dv -> managed gen cs (set_dv_open b dv).
  Proof.
    intros [[n F] H]. split; [exists n; destruct F as (dv0 & T & F); exists dv0; split; [exact T|exact F]|]. exact H.
  Qed.

  (* loading *)
  Lemma load_origs texts clock : forall acc ents, load_files texts clock acc = Ok ents ->
    exists fs, accepted texts fs /\ map k_orig ents = map snd fs ++ map k_orig acc.
  Proof.
    induction texts as [|t r IH]; cbn [load_files]; intros acc ents H.
    - apply Ok_inj in H. subst. exists []. split; [constructor|reflexivity].
    - destruct (config_parse t) as [o| | |] eqn:E; cbn [bind] in H; try discriminate H.
      apply IH in H as (fs & A & B). destruct o as [c|].
      + exists (fs ++ [(t, c)]). split; [now constructor|]. rewrite B, map_app, <- app_assoc. reflexivity.
      + exists fs. split; [now constructor|exact B].
  Qed.
  Variable texts : list str.
  Definition bound_ok (d : dstate) (cs : list (dstate * event * Z * Z)) : Prop :=
    (exists fs, accepted (loaded texts cs) fs /\ origs d = map snd fs) /\ Forall (managed (d_gen d) (origs d)) (d_devs d).
  Lemma still_bound d d' cs cs' : still d d' -> loaded texts cs' = loaded texts cs -> bound_ok d cs -> bound_ok d' cs'.
  Proof. intros (A & B & C) L [D E]. unfold bound_ok. rewrite A, B, C, L. auto. Qed.
  Lemma reload_bound new grabs d d' : (forall i, G (grabs i)) -> reload new grabs d = Ok d' -> Forall known (d_devs d) ->
    (exists fs, accepted new fs /\ origs d' = map snd fs) /\ Forall (managed (d_gen d') (origs d')) (d_devs d').
  Proof.
    intros Hg H F. unfold reload in H. destruct (load_files new (d_clock d) []) as [ents| | |] eqn:E; cbn [bind] in H; try discriminate H.
    apply Ok_inj in H. subst d'. apply load_origs in E as (fs & A & B). cbn [map] in B. rewrite app_nil_r in B.
    set (d1 := set_d_ents ents (set_d_gen (S (d_gen d)) d)).
    set (d2 := set_d_devs (manage_all d1 grabs 0 (d_devs d1)) d1).
    assert (S1 : still d2 (clear_vkbd d2)).
    { unfold clear_vkbd. generalize (seq 0 256) as l. intros l. generalize d2. clear.
      induction l as [|i l IH]; intros d; cbn [fold_left]; [apply still_refl|].
      eapply still_trans; [|apply IH]. unfold clear_key. destruct (d_ks d _); repeat split. }
    destruct S1 as (S1 & S2 & S3). rewrite S1, S2, S3. split.
    - exists fs. split; [exact A|]. exact B.
    - change (d_gen d2) with (d_gen d1). change (origs d2) with (origs d1). cbn [d2 d_devs set_d_devs].
      apply manage_all_managed; [exact Hg|exact F].
  Qed.
  Lemma client_bound fuel wr con m new grabs ts d d' t cs : (forall i, G (grabs i)) ->
    event_handler fuel wr (EvClient con m new grabs) ts d = Ok (d', t) -> bound_ok d cs ->
    bound_ok d' ((d, EvClient con m new grabs, ts, t) :: cs).
  Proof.
    intros Hg H B.
    destruct (i_type m) eqn:Et.
    4:{ unfold bound_ok. cbn [loaded]. unfold reloads. rewrite Et.
        unfold event_handler in H. set (d0 := set_d_times ts _ d) in H.
        assert (B0 : bound_ok d0 cs) by exact B. clearbody d0. clear B. revert H. cbn [bind]. unfold handle_client.
        rewrite N.leb_antisym. destruct (i_sz m <? 4096); cbn [negb andb].
        - rewrite Et, N.ltb_antisym. destruct (i_timeout m <=? 1000000); cbn [negb].
          + intros H. destruct (reload new grabs d0) as [d1| | |] eqn:E; cbn [bind] in H; try discriminate H.
            apply Ok_inj in H. apply pair_equal_spec in H as [<- _].
            assert (K : Forall known (d_devs d0)). { destruct B0 as [_ K]. eapply Forall_impl; [|exact K]. intros. eapply managed_known; eauto. }
            exact (reload_bound new grabs d0 d1 Hg E K).
          + cbn [bind]. intros H. apply Ok_inj in H. apply pair_equal_spec in H as [<- _]. exact B0.
        - cbn [bind]. intros H. apply Ok_inj in H. apply pair_equal_spec in H as [<- _]. exact B0. }
    all: eapply still_bound; [eapply quiet_handler; [exact H|cbn; congruence]| |exact B]; cbn [loaded]; unfold reloads; rewrite Et; reflexivity.
  Qed.
  Definition ev_ok (e : event) : Prop :=
    match e with EvAdd _ _ => False | EvClient _ _ _ grabs => forall i, G (grabs i) | _ => True end.
  Lemma handler_bound fuel wr ev ts d d' t cs : ev_ok ev -> event_handler fuel wr ev ts d = Ok (d', t) -> bound_ok d cs ->
    bound_ok d' ((d, ev, ts, t) :: cs).
  Proof.
    intros He H B. destruct ev as [|i de|i g|i|con m new grabs]; try contradiction.
    4:{ eapply client_bound; eauto. }
    all: eapply still_bound; [eapply quiet_handler; [exact H|exact Logic.I]|reflexivity|exact B].
  Qed.
  Lemma add_event fuel wr i g ts d d' t : event_handler fuel wr (EvAdd i g) ts d = Ok (d', t) -> exists dv,
    nth_error (d_devs d) i = Some dv /\ d_gen d' = d_gen d /\ origs d' = origs d /\ d_devs d' = upd i (manage_device d g dv) (d_devs d).
  Proof.
    unfold event_handler. cbn [d_devs set_d_times]. destruct (nth_error (d_devs d) i) as [dv|]; [|discriminate]. cbn [bind].
    intros H. apply Ok_inj in H. apply pair_equal_spec in H as [<- _]. exists dv. repeat split.
  Qed.
  Lemma upd_last {A} (x y : A) : forall l, upd (length l) x (l ++ [y]) = l ++ [x].
  Proof. induction l as [|a l IH]; unfold upd in *; cbn in *; [reflexivity|]. now f_equal. Qed.
  Lemma runs_bound fuel wr l : lives fuel wr G texts l -> bound_ok (lp_d l) (lp_calls l).
  Proof.
    induction 1 as [devs grabs ts l F Hg H|r l l' Hl IH Fa Fc H].
    - unfold start in H. destruct (reload texts grabs (d_init [])) as [d| | |] eqn:Er; cbn [bind] in H; try discriminate H.
      destruct (calls _ _ _ _ _) as [l1| | |] eqn:E; cbn [bind] in H; try discriminate H.
      apply Ok_inj in H. subst l. cbn [lp_d lp_calls].
      apply (reload_bound texts grabs) in Er as [A _]; [|exact Hg|constructor].
      assert (Z : forall n done rest l l1, calls fuel wr (map (fun i => EvAdd i (grabs i)) (seq (length done) n)) ts l = Ok l1 ->
        n = length rest -> d_devs (lp_d l) = done ++ rest -> loaded texts (lp_calls l) = texts ->
        (exists fs, accepted texts fs /\ origs (lp_d l) = map snd fs) ->
        Forall (managed (d_gen (lp_d l)) (origs (lp_d l))) done -> Forall recognised rest ->
        bound_ok (lp_d l1) (lp_calls l1)).
      { clear -Hg. induction n as [|n IHn]; intros done rest l l1 H L D Hc A B C.
        - cbn in H. apply Ok_inj in H. subst l1. destruct rest; [|discriminate L]. rewrite app_nil_r in D.
          split; [now rewrite Hc|]. rewrite D. exact B.
        - destruct rest as [|dv rest]; [discriminate L|]. cbn [seq map calls] in H.
          destruct (call _ _ _ _ _) as [l2| | |] eqn:E; cbn [bind] in H; try discriminate H.
          unfold call in E. destruct (event_handler _ _ _ _ _) as [[d t]| | |] eqn:E1; cbn [bind] in E; try discriminate E.
          apply Ok_inj in E. subst l2. apply add_event in E1 as (dv' & En & E2 & E3 & E4).
          rewrite D in En, E4. rewrite nth_error_app2 in En by lia. rewrite Nat.sub_diag in En. injection En as <-.
          assert (U : upd (length done) (manage_device (lp_d l) (grabs (length done)) dv) (done ++ dv :: rest)
                      = (done ++ [manage_device (lp_d l) (grabs (length done)) dv]) ++ rest).
          { generalize (manage_device (lp_d l) (grabs (length done)) dv) as y. clear. intros y. rewrite <- app_assoc. cbn [app]. induction done as [|a r IH]; unfold upd in *; cbn in *; [reflexivity|]. now f_equal. }
          rewrite U in E4.
          replace (S (length done)) with (length (done ++ [manage_device (lp_d l) (grabs (length done)) dv])) in H
            by (rewrite app_length; cbn [length]; lia).
          apply (IHn _ rest _ _ H); cbn [lp_d lp_calls]; auto.
          + now rewrite E3.
          + rewrite E2, E3. apply Forall_app. split; [exact B|]. constructor; [|constructor].
            apply manage_managed; [apply Hg|]. apply recognised_known, (Forall_inv C).
          + exact (Forall_inv_tail C). }
      refine (Z (length devs) [] devs _ l1 E eq_refl eq_refl eq_refl A _ F). constructor.
    - refine (round_at fuel wr bound_ok ev_ok (fun x => recognised (fst x) /\ G (snd x)) _ _ _ _ _ _ r l l' H Fa _ IH).
      + intros. eapply handler_bound; eauto.
      + intros i dv d cs En [A B]. split; [exact A|]. cbn [d_devs set_d_devs d_gen]. apply Forall_upd; [|exact B].
        apply managed_open. rewrite Forall_forall in B. apply B. now apply nth_error_In in En.
      + intros i dv d cs En [A B]. split; [exact A|]. cbn [d_devs set_d_devs d_gen]. apply Forall_upd; [|exact B].
        rewrite Forall_forall in B. apply B. now apply nth_error_In in En.
      + intros d cs [A B]. split; [exact A|]. cbn [d_devs set_d_devs d_gen]. apply Forall_forall. intros x Hx.
        apply filter_In in Hx as [Hx _]. rewrite Forall_forall in B. now apply B.
      + intros dv g ts d d' t cs [Hr Hg] He [A B]. apply add_event in He as (dv' & En & E2 & E3 & E4).
        cbn [d_devs set_d_devs d_gen] in *. rewrite nth_error_app2 in En by lia. rewrite Nat.sub_diag in En. injection En as <-.
        rewrite upd_last in E4. unfold bound_ok. rewrite E2, E3, E4. split; [exact A|].
        apply Forall_app. split; [exact B|]. constructor; [|constructor].
        exact (manage_managed (set_d_devs (d_devs d ++ [dv]) d) g dv Hg (recognised_known _ Hr)).
      + split; [exact Logic.I|]. split; intros; exact Logic.I.
      + apply Forall_map. eapply Forall_impl; [|exact Fc]. intros [[[con m] new] grabs] Hg. exact Hg.
  Qed.
End Managed.

Lemma best_in : forall cs id fl i m rank, match fst (best_match cs id fl i m rank) with
  | Some j => m = Some j \/ (i <= j < i + length cs)%nat | None => True end.
Proof.
  induction cs as [|c cs IH]; intros id fl i m rank; cbn [best_match fst].
  - destruct m; auto.
  - cbv zeta. destruct (rank <? _).
    + specialize (IH id fl (S i) (Some i) (config_check_match c id fl)). destruct (fst _) as [j|]; [|exact IH].
      cbn [length]. destruct IH as [IH|IH]; [injection IH as <-|]; right; lia.
    + specialize (IH id fl (S i) m rank). destruct (fst _) as [j|]; [|exact IH]. cbn [length]. destruct IH as [IH|IH]; [now left|right; lia].
Qed.
Lemma lookup_in cs id fl i : lookup_config_ent cs id fl = Some i -> (i < length cs)%nat.
Proof.
  unfold lookup_config_ent. assert (B := best_in cs id fl 0 None 0). destruct (best_match _ _ _ _ _ _) as [m rank]. cbn [fst] in B.
  destruct (_ && _); [discriminate|]. intros ->. destruct B as [B|B]; [discriminate B|lia].
Qed.
