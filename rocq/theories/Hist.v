(* Histories: everything the daemon does to one keyboard object. *)
From Verif Require Import Base Lib Keys Types MacroExec Kbd Config Outside Steps.

(* [reach G c k]: from a fresh keyboard for the configuration c, a history of
   batches of events (daemon.c:463-475, 488-558: kbd_process_events with key events or, for
   a timer, an event with code 0), live rebinds (daemon.c:435-448: kbd_eval) and
   what the daemon does in between (Outside.v) leads to k.  G holds of the
   configuration in force at all times.  The clock of get_time is shared between
   keyboards, so it starts anywhere. *)
Inductive reach (G : config -> Prop) (c : config) : kbd -> Prop :=
| reach_init clk : (1 <= clk)%Z -> G c -> reach G c (new_keyboard c clk)
| reach_events k fuel evs k' t :
    reach G c k -> kbd_process_events fuel k evs = Ok (k', t) -> reach G c k'
| reach_eval k exp k' ok :
    reach G c k -> kbd_eval k exp = Ok (k', ok) -> G (k_cfg k') -> reach G c k'
| reach_outside k k' : reach G c k -> outside k k' -> reach G c k'.

(* Histories without rebinding. *)
Inductive run_to (c : config) : kbd -> Prop :=
| run_init clk : (1 <= clk)%Z -> run_to c (new_keyboard c clk)
| run_events k fuel evs k' t :
    run_to c k -> kbd_process_events fuel k evs = Ok (k', t) -> run_to c k'
| run_outside k k' : run_to c k -> outside k k' -> run_to c k'.

Lemma run_to_reach (G : config -> Prop) c k : G c -> run_to c k -> reach G c k.
Proof. intros HG H. induction H; eauto using reach_init, reach_events, reach_outside. Qed.

Lemma kbd_eval_shape k exp k' ok :
  kbd_eval k exp = Ok (k', ok) -> exists c, k' = set_k_cfg c k.
Proof.
  unfold kbd_eval. intros H. bauto H; eauto.
Qed.

Lemma reach_ind_steps (G : config -> Prop) (c : config) (P : kbd -> Prop) :
  (forall clk, (1 <= clk)%Z -> P (new_keyboard c clk)) ->
  (forall k k', G (k_cfg k) -> prim k k' -> P k -> P k') ->
  (forall k c', P k -> P (set_k_cfg c' k)) ->
  (forall k k', outside k k' -> P k -> P k') ->
  forall k, reach G c k -> P k.
Proof.
  intros Hi Hp He Ho k H.
  assert (HH : G (k_cfg k) /\ P k); [|tauto].
  induction H as [clk|k fuel evs k' t Hr [IG IP] H|k exp k' ok Hr [IG IP] H HG|k k' Hr [IG IP] H].
  - split; auto.
  - apply kbd_process_events_steps in H. split.
    + apply steps_cfg in H as [-> _]. auto.
    + clear Hr. induction H; auto. apply IHsteps.
      * now destruct (prim_cfg _ _ H) as [-> _].
      * eauto.
  - apply kbd_eval_shape in H as [c' ->]. split; auto.
  - split; [|eapply Ho; eauto]. destruct H; exact IG.
Qed.

(* ---- concrete histories for examples -------------------------------------- *)
(* a configuration given as text *)
Definition cfg_of (text : str) : config :=
  match config_parse text with Ok (Some c) => c | _ => zero_config end.

Fixpoint run_batches (k : kbd) (bs : list (list kev)) : option kbd :=
  match bs with
  | [] => Some k
  | evs :: r =>
      match kbd_process_events 200 k evs with
      | Ok (k', _) => run_batches k' r
      | _ => None
      end
  end.

Lemma run_batches_reach c bs : forall k k', run_to c k ->
  run_batches k bs = Some k' -> run_to c k'.
Proof.
  induction bs as [|evs r IH]; cbn [run_batches]; intros k k' Hk H.
  - now injection H as <-.
  - destruct (kbd_process_events 200 k evs) as [[k1 t]| | |] eqn:E; try discriminate.
    eapply IH; [|exact H]. eapply run_events; eauto.
Qed.

Definition check_run (c : config) (bs : list (list kev)) (f : kbd -> bool) : bool :=
  match run_batches (new_keyboard c 1) bs with Some k => f k | None => false end.

Lemma check_run_ok c bs f :
  check_run c bs f = true -> exists k, run_to c k /\ f k = true.
Proof.
  unfold check_run. destruct (run_batches _ _) as [k|] eqn:E; [|discriminate].
  intros H. exists k. split; auto. eapply run_batches_reach; [|exact E]. apply run_init. lia.
Qed.

Definition D (c : N) (t : Z) : kev := mkKev c true t.
Definition U (c : N) (t : Z) : kev := mkKev c false t.
Definition T (t : Z) : kev := mkKev 0 false t.
