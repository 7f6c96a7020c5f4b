(* The recursive part of the engine separated from the rest: handle_chord and
   handle_pending_key compute, without recursion, a new state and a plan of
   events to replay.  Then a general invariant principle for process_event. *)
From Verif Require Import Base Lib Keys Types MacroExec Kbd.

Inductive cplan :=
| PlanPass                                        (* not a chord event *)
| PlanTaken                                       (* swallowed *)
| PlanRelease (i : nat)                           (* release active chord i *)
| PlanReplay (press : option nat) (rest : option (list kev)).
  (* end of an attempt: press active chord i, replay events; rest = None when
     the queue is shorter than the chord *)

(* the non-recursive part of resolve_chord *)
Definition resolve_plan (k : kbd) : res (kbd * cplan) :=
  let k0 := set_cstate CsResolving k in
  match h_match (k_chord k0) with
  | None => Ok (k0, PlanReplay None (Some (h_queue (k_chord k0))))
  | Some p =>
      ch <- deref_match k0 p ;;
      match free_chord (k_achords k0) 0 with
      | None => Crash CActiveChords
      | Some i =>
          Ok (set_k_achords (upd i (mkAc true ch (h_mlayer (k_chord k0))) (k_achords k0)) k0,
              PlanReplay (Some i)
                (if Nat.ltb (length (h_queue (k_chord k0))) (length (ch_keys ch)) then None
                 else Some (skipn (length (ch_keys ch)) (h_queue (k_chord k0)))))
      end
  end.
Definition abort_plan (k : kbd) : res (kbd * cplan) :=
  resolve_plan (set_k_chord (set_h_match None (k_chord k)) k).

Definition matched_plan (k : kbd) (r : ccres) (time : Z) : res (kbd * cplan) :=
  let k1 := set_k_chord (set_h_last time (k_chord k)) k in
  let hold := c_chord_hold (k_cfg k) in
  match r with
  | CC2 =>
      if (hold =? 0)%Z then resolve_plan k1
      else
        k2 <- schedule_timeout (set_cstate CsHold k1) (time + hold)%Z ;;
        Ok (k2, PlanTaken)
  | _ =>
      k2 <- schedule_timeout (set_cstate CsDisambiguation k1)
              (time + c_chord_interkey (k_cfg k))%Z ;;
      Ok (k2, PlanTaken)
  end.

(* release of a key of an active chord *)
Definition chord_up (k : kbd) (code : N) (i : nat) : kbd * bool :=
  let ac := nth i (k_achords k) zero_ac in
  let keys' := map (fun x => if (x =? code)%N then 0%N else x) (ch_keys (ac_chord ac)) in
  let remaining := existsb (fun x => negb (x =? 0)%N) keys' in
  let ac' := mkAc remaining (mkChord keys' (ch_d (ac_chord ac))) (ac_layer ac) in
  (set_k_achords (upd i ac' (k_achords k)) k, remaining).

Definition chord_plan (k : kbd) (code : N) (pressed : bool) (time : Z) : res (kbd * cplan) :=
  let interkey := c_chord_interkey (k_cfg k) in
  let hold := c_chord_hold (k_cfg k) in
  match (if negb (code =? 0)%N && negb pressed then chord_of_key (k_achords k) code 0 else None) with
  | Some i =>
      let '(k1, remaining) := chord_up k code i in
      Ok (k1, if remaining then PlanTaken else PlanRelease i)
  | None =>
      match h_state (k_chord k) with
      | CsResolving => Ok (k, PlanPass)
      | CsInactive =>
          let k0 := set_k_chord (set_h_match None (set_h_queue [] (k_chord k))) k in
          k1 <- enqueue_chord_event k0 code pressed time ;;
          let '(r, k2) := check_chord_match k1 in
          match r with
          | CC0 => Ok (k2, PlanPass)
          | _ => matched_plan k2 r time
          end
      | CsDisambiguation =>
          if (code =? 0)%N then
            if (interkey <=? time - h_last (k_chord k))%Z then
              match h_match (k_chord k) with
              | Some _ =>
                  let timeleft := (hold - interkey)%Z in
                  if (0 <? timeleft)%Z then
                    k1 <- schedule_timeout k (time + timeleft)%Z ;;
                    Ok (set_cstate CsHold k1, PlanTaken)
                  else resolve_plan k
              | None => abort_plan k
              end
            else Ok (k, PlanPass)
          else
            k1 <- enqueue_chord_event k code pressed time ;;
            if negb pressed then abort_plan k1
            else
              let '(r, k2) := check_chord_match k1 in
              match r with
              | CC0 => abort_plan k2
              | _ => matched_plan k2 r time
              end
      | CsHold =>
          if (code =? 0)%N then
            if (hold <=? time - h_last (k_chord k))%Z then resolve_plan k
            else Ok (k, PlanPass)
          else
            k1 <- enqueue_chord_event k code pressed time ;;
            if negb pressed then
              match h_match (k_chord k1) with
              | None => UB
              | Some p =>
                  ch <- deref_match k1 p ;;
                  if in_keys code (ch_keys ch) then abort_plan k1
                  else Ok (k1, PlanTaken)
              end
            else Ok (k1, PlanTaken)
      end
  end.

Definition chord_code (i : nat) : N := (K_CHORD_1 + N.of_nat i)%N.

Definition run_plan (pe : pe_t) (pes : pes_t) (time : Z) (r : kbd * cplan) : res (kbd * bool) :=
  let '(k1, pl) := r in
  match pl with
  | PlanPass => Ok (k1, false)
  | PlanTaken => Ok (k1, true)
  | PlanRelease i => '(k2, _) <- pe k1 (chord_code i) false time ;; Ok (k2, true)
  | PlanReplay press rest =>
      k2 <- match press with
            | None => Ok k1
            | Some i => '(k2, _) <- pe k1 (chord_code i) true (h_last (k_chord k1)) ;; Ok k2
            end ;;
      match rest with
      | None => UB
      | Some evs => '(k3, _) <- pes k2 evs ;; Ok (set_cstate CsInactive k3, true)
      end
  end.

Lemma bind_assoc {A B C} (e : res A) (f : A -> res B) (g : B -> res C) :
  bind (bind e f) g = bind e (fun x => bind (f x) g).
Proof. destruct e; reflexivity. Qed.
Lemma bind_ext {A B} (e : res A) (f g : A -> res B) :
  (forall a, e = Ok a -> f a = g a) -> bind e f = bind e g.
Proof. destruct e; cbn; auto. Qed.

Lemma resolve_chord_plan pe pes time k :
  resolve_chord pe pes k = bind (resolve_plan k) (run_plan pe pes time).
Proof.
  unfold resolve_chord, resolve_plan. destruct (h_match _) as [p|]; cbn [bind].
  - rewrite !bind_assoc. apply bind_ext. intros ch _.
    destruct (free_chord _ 0) as [i|]; cbn [bind run_plan]; auto.
    fold (chord_code i).
    destruct (pe _ _ _ _) as [[k2 t]| | |]; cbn [bind]; auto.
    destruct (Nat.ltb _ _); auto.
  - cbn [run_plan bind]. reflexivity.
Qed.

Lemma handle_chord_plan pe pes k code pressed time :
  handle_chord pe pes k code pressed time
  = bind (chord_plan k code pressed time) (run_plan pe pes time).
Proof.
  unfold handle_chord, chord_plan, abort_chord, abort_plan.
  assert (Hm : forall k r, chord_matched pe pes k r time
               = bind (matched_plan k r time) (run_plan pe pes time)).
  { intros k0 r. unfold chord_matched, matched_plan. destruct r;
      rewrite ?(resolve_chord_plan pe pes time);
      try (rewrite bind_assoc; apply bind_ext; reflexivity).
    destruct (_ =? _)%Z; auto.
    rewrite bind_assoc; apply bind_ext; reflexivity. }
  destruct (if negb (code =? 0)%N && negb pressed then chord_of_key (k_achords k) code 0 else None) as [i|].
  - unfold chord_up. destruct (existsb _ _); reflexivity.
  - destruct (h_state (k_chord k)).
    + reflexivity.
    + rewrite bind_assoc. apply bind_ext. intros k1 _.
      destruct (check_chord_match k1) as [[] k2]; auto.
    + destruct (code =? 0)%N.
      * destruct (_ <=? _)%Z; auto. destruct (h_match _).
        -- destruct (0 <? _)%Z; rewrite ?(resolve_chord_plan pe pes time); auto.
           rewrite bind_assoc. apply bind_ext. reflexivity.
        -- apply resolve_chord_plan.
      * rewrite bind_assoc. apply bind_ext. intros k1 _.
        destruct pressed; cbn [negb]; [|apply resolve_chord_plan].
        destruct (check_chord_match k1) as [[] k2]; first [apply Hm | apply resolve_chord_plan].
    + destruct (code =? 0)%N.
      * destruct (_ <=? _)%Z; auto. apply resolve_chord_plan.
      * rewrite bind_assoc. apply bind_ext. intros k1 _.
        destruct pressed; cbn [negb]; auto. destruct (h_match _); auto.
        rewrite bind_assoc. apply bind_ext. intros ch _.
        destruct (in_keys _ _); [apply resolve_chord_plan|reflexivity].
Qed.

(* ---- pending key -------------------------------------------------------------- *)
Inductive pplan := PPass | PTaken | PReplay (evs : list kev).

(* the decision falls: the action is performed, the queue is to be replayed *)
Definition decide (k : kbd) (p1 : pend) (action : desc) (time : Z) : res kbd :=
  let k1 := set_k_pend (set_p_code 0%N (set_p_queue [] p1)) k in
  let k2 := match cache_set k1 (p_code p1) (Some (mkCe 0 action (p_dl p1) 0)) with
            | Some k' => k'
            | None => k1
            end in
  do_desc k2 (p_code p1) action (p_dl p1) true time.

Definition pending_plan (k : kbd) (code : N) (pressed : bool) (time : Z) : res (kbd * pplan) :=
  let p := k_pend k in
  if (p_code p =? 0)%N then Ok (k, PPass)
  else if negb (code =? 0)%N && negb (Nat.ltb (length (p_queue p)) MAX_QUEUE)
  then Crash CPendingQueue
  else if negb (code =? 0)%N && negb pressed
          && negb (existsb (fun e => (ev_code e =? code)%N) (p_queue p))
          && negb (code =? p_code p)%N
  then Ok (k, PPass)
  else
    let p1 := if (code =? 0)%N then p
              else set_p_queue (p_queue p ++ [mkKev code pressed time]) p in
    let action := pending_action p1 code pressed time in
    if has_op action then
      k3 <- decide k p1 action time ;;
      Ok (k3, PReplay (p_queue p1))
    else Ok (set_k_pend p1 k, PTaken).

Definition run_pplan (pes : pes_t) (r : kbd * pplan) : res (kbd * bool) :=
  let '(k1, pl) := r in
  match pl with
  | PPass => Ok (k1, false)
  | PTaken => Ok (k1, true)
  | PReplay evs => '(k4, _) <- pes k1 evs ;; Ok (k4, true)
  end.

Lemma handle_pending_plan pes k code pressed time :
  handle_pending_key pes k code pressed time
  = bind (pending_plan k code pressed time) (run_pplan pes).
Proof.
  unfold handle_pending_key, pending_plan, decide. cbv zeta.
  destruct (_ =? 0)%N; [reflexivity|].
  destruct (_ && _); [reflexivity|].
  destruct (_ && _); [reflexivity|].
  destruct (has_op _); [|reflexivity].
  rewrite bind_assoc. apply bind_ext. reflexivity.
Qed.

(* ---- the rest ------------------------------------------------------------------ *)
Definition rest_step (k : kbd) (code : N) (pressed : bool) (time : Z) : res kbd :=
  k3 <- expire_oneshot k time ;;
  k4 <- run_active_macro k3 code time ;;
  handle_key k4 code pressed time.

(* process_event once the chord and pending stages are passed *)
Definition after_chord (pes : pes_t) (k1 : kbd) (code : N) (pressed : bool) (time : Z) : res (kbd * Z) :=
  '(k2, b2) <- bind (pending_plan k1 code pressed time) (run_pplan pes) ;;
  if b2 : bool then Ok (calculate_main_loop_timeout k2 time)
  else
    k5 <- rest_step k2 code pressed time ;;
    Ok (calculate_main_loop_timeout k5 time).

Lemma process_event_plan pe pes k code pressed time :
  process_event_F pe pes k code pressed time =
  ('(k1, b1) <- bind (chord_plan k code pressed time) (run_plan pe pes time) ;;
   if b1 : bool then Ok (calculate_main_loop_timeout k1 time)
   else after_chord pes k1 code pressed time).
Proof.
  unfold process_event_F, after_chord, rest_step. rewrite handle_chord_plan.
  apply bind_ext. intros [k1 b1] _. destruct b1; auto.
  rewrite handle_pending_plan. apply bind_ext. intros [k2 b2] _. destruct b2; auto.
  rewrite !bind_assoc. apply bind_ext. intros k3 _.
  rewrite !bind_assoc. reflexivity.
Qed.

(* ---- the invariant principle ---------------------------------------------------- *)
Section Lift.
Variable I : kbd -> Prop.
Variable Q : kev -> Prop.             (* events that may be fed to the engine *)
Variable allowed : crash -> Prop.

Definition safe {A} (P : A -> Prop) (r : res A) : Prop :=
  match r with Ok a => P a | Crash c => allowed c | UB => False | NoFuel => True end.

Lemma safe_bind {A B} (P : A -> Prop) (R : B -> Prop) e (f : A -> res B) :
  safe P e -> (forall a, P a -> safe R (f a)) -> safe R (bind e f).
Proof. destruct e; cbn; auto. Qed.
Lemma safe_bind_eq {A B} (P : A -> Prop) (R : B -> Prop) e (f : A -> res B) :
  safe P e -> (forall a, e = Ok a -> P a -> safe R (f a)) -> safe R (bind e f).
Proof. destruct e; cbn; auto. Qed.
Lemma safe_weak {A} (P R : A -> Prop) e : safe P e -> (forall a, P a -> R a) -> safe R e.
Proof. destruct e; cbn; auto. Qed.
Lemma safe_Ok {A} (P : A -> Prop) e a : safe P e -> e = Ok a -> P a.
Proof. intros H ->. exact H. Qed.

Definition plan_ok (time : Z) (r : kbd * cplan) : Prop :=
  let '(k, pl) := r in
  match pl with
  | PlanPass | PlanTaken => I k
  | PlanRelease i => I k /\ Q (mkKev (chord_code i) false time)
  | PlanReplay press rest =>
      I k
      /\ (forall i, press = Some i -> Q (mkKev (chord_code i) true (h_last (k_chord k))))
      /\ exists evs, rest = Some evs /\ Forall Q evs
  end.
Definition pplan_ok (r : kbd * pplan) : Prop :=
  let '(k, pl) := r in
  match pl with
  | PPass | PTaken => I k
  | PReplay evs => I k /\ Forall Q evs
  end.

Hypothesis o_tick : forall t, Q (mkKev 0 false t).
Hypothesis o_chord : forall k code pressed time,
  I k -> Q (mkKev code pressed time) -> safe (plan_ok time) (chord_plan k code pressed time).
Hypothesis o_inactive : forall k, I k -> I (set_cstate CsInactive k).
Hypothesis o_pending : forall k code pressed time,
  I k -> Q (mkKev code pressed time) -> safe pplan_ok (pending_plan k code pressed time).
Hypothesis o_rest : forall k code pressed time,
  I k -> Q (mkKev code pressed time) -> safe I (rest_step k code pressed time).
Hypothesis o_time : forall k live, I k -> I (set_k_timeouts (filter live (k_timeouts k)) k).

Definition good (r : kbd * Z) : Prop := I (fst r).

Lemma lift_loop pe : (forall k code pressed time, I k -> Q (mkKev code pressed time) ->
                        safe good (pe k code pressed time)) ->
  forall fuel k evs t ts, I k -> Forall Q evs -> safe good (pe_loop pe fuel k evs t ts).
Proof.
  intros Hpe. induction fuel as [|fuel IH]; intros k evs t ts Hk He; destruct evs as [|ev rest]; cbn [pe_loop].
  1, 3: exact Hk.
  - exact Logic.I.
  - destruct (_ && _).
    + eapply safe_bind; [apply Hpe; auto|]. intros [k1 t1] H1. apply IH; auto.
    + inversion He; subst. eapply safe_bind; [apply Hpe; auto; destruct ev; auto|].
      intros [k1 t1] Hg. apply IH; auto.
Qed.

Lemma lift : forall fuel k code pressed time, I k -> Q (mkKev code pressed time) ->
  safe good (process_event fuel k code pressed time).
Proof.
  induction fuel as [|fuel IH]; intros k code pressed time Hk Hq; [exact Logic.I|].
  cbn [process_event]. rewrite process_event_plan.
  pose proof (lift_loop _ IH) as HL.
  eapply safe_bind with (P := fun r => I (fst r)).
  { eapply safe_bind; [apply o_chord; eauto|].
    intros [k1 pl] Hp. unfold plan_ok in Hp. destruct pl as [| |i|press rest]; cbn [run_plan].
    - exact Hp.
    - exact Hp.
    - eapply safe_bind; [apply IH; apply Hp|]. intros [k2 t2] H2. exact H2.
    - destruct Hp as [H1 [H2 [evs [-> H3]]]].
      eapply safe_bind with (P := I).
      { destruct press as [i|]; [|exact H1].
        eapply safe_bind; [apply IH; eauto|]. intros [k2 t2] H4. exact H4. }
      intros k2 Hk2. eapply safe_bind; [apply HL; eauto|].
      intros [k3 t3] Hk3. cbn. apply o_inactive. exact Hk3. }
  intros [k1 b1] Hk1. cbn [fst] in Hk1. destruct b1; [apply o_time; exact Hk1|].
  unfold after_chord. eapply safe_bind with (P := fun r => I (fst r)).
  { eapply safe_bind; [apply o_pending; eauto|].
    intros [k2 pl] Hp. destruct pl; cbn [run_pplan]; auto.
    eapply safe_bind; [apply HL; apply Hp|]. intros [k4 t4] H4. exact H4. }
  intros [k2 b2] Hk2. cbn [fst] in Hk2. destruct b2; [apply o_time; exact Hk2|].
  eapply safe_bind; [apply o_rest; eauto|]. intros k5 Hk5. apply o_time; exact Hk5.
Qed.

Lemma lift_events fuel k evs : I k -> Forall Q evs -> safe good (kbd_process_events fuel k evs).
Proof. intros. apply lift_loop; auto. intros; now apply lift. Qed.
End Lift.
