(* The keyboards of the daemon are engine histories. *)
From Verif Require Import Base Lib Types Keys MacroExec Kbd Str MacroParse Config Match Outside Steps Hist Device Daemon SpecDaemon DaemonProofs.
Local Open Scope N_scope.

Lemma prim_clock k k' : prim k k' -> (k_clock k <= k_clock k')%Z.
Proof.
  intros H. destruct H as [k k' H| | | | |k code i k' H|k i k' H| | |].
  - destruct H as (_ & _ & _ & _ & -> & _). lia.
  - unfold send_key. repeat match goal with |- context [if ?b then _ else _] => destruct b end;
    cbn [k_clock emit set_k_out set_k_ks set_k_last_out]; lia.
  - cbn [k_clock emit set_k_out set_k_ks]. lia.
  - cbn [k_clock emits set_k_out]. lia.
  - cbn [k_clock emit set_k_out]. lia.
  - unfold activate_layer in H. bauto H; cbn [k_clock emit set_k_out set_k_cache set_k_clock set_lsi set_k_ls]; lia.
  - unfold deactivate_layer in H. bauto H; cbn [k_clock emit set_k_out set_k_cache set_k_clock set_lsi set_k_ls]; lia.
  - unfold drop_layout. repeat match goal with |- context [if ?b then _ else _] => destruct b end; cbn; lia.
  - cbn. lia.
  - cbn [k_clock emit set_k_out]. lia.
Qed.
Lemma steps_clock k k' : steps k k' -> (k_clock k <= k_clock k')%Z.
Proof. induction 1 as [|k k1 k2 H _ IH]; [lia|]. apply prim_clock in H. lia. Qed.

(* what delivering effects leaves alone *)
Definition same_ents (d d' : dstate) : Prop :=
  d_ents d' = d_ents d /\ d_gen d' = d_gen d /\ d_clock d' = d_clock d /\ d_devs d' = d_devs d /\ d_active d' = d_active d.
Lemma same_ents_trans a b c : same_ents a b -> same_ents b c -> same_ents a c.
Proof. unfold same_ents. intuition congruence. Qed.
Lemma dsend_ents c s d : same_ents d (dsend_key c s d).
Proof.
  unfold dsend_key. repeat match goal with |- context [if ?b then _ else _] => destruct b end; repeat split.
Qed.
Lemma deliver_ents wr p c os d d' : deliver_all wr p c os d = Ok d' -> same_ents d d'.
Proof.
  apply deliver_keeps; intros; try (repeat split; fail).
  - eapply same_ents_trans; eauto.
  - apply dsend_ents.
Qed.
Lemma clear_ents d : same_ents d (clear_vkbd d).
Proof.
  unfold clear_vkbd. generalize (seq 0 256) as l. intros l. revert d.
  induction l as [|i l IH]; intros d; cbn [fold_left]; [repeat split|].
  eapply same_ents_trans; [|apply IH]. unfold clear_key. destruct (d_ks d _); repeat split.
Qed.

(* one call of the engine *)
Lemma run_inv fuel wr p ev d d' t : run_kbd fuel wr p ev d = Ok (d', t) -> exists k k1 d1,
  deref d p = Ok k /\ kbd_process_events fuel (set_k_clock (d_clock d) k) [ev] = Ok (k1, t) /\
  deliver_all wr p (k_cfg k1) (rev (firstn (length (k_out k1) - length (k_out k)) (k_out k1))) (set_d_clock (k_clock k1) d) = Ok d1 /\
  d' = store p k1 d1.
Proof.
  unfold run_kbd. intros H. destruct (deref d p) as [k| | |] eqn:E1; cbn [bind] in H; try discriminate H.
  destruct (kbd_process_events _ _ _) as [[k1 t1]| | |] eqn:E2; cbn [bind] in H; try discriminate H.
  destruct (deliver_all _ _ _ _ _) as [d1| | |] eqn:E3; cbn [bind] in H; try discriminate H.
  apply Ok_inj in H. apply pair_equal_spec in H as [<- <-]. exists k, k1, d1. auto.
Qed.
Lemma deref_in d p k : deref d p = Ok k -> In k (d_ents d).
Proof.
  unfold deref. destruct (Nat.eqb _ _); [|discriminate]. destruct (nth_error _ _) eqn:E; [|discriminate].
  intros H. apply Ok_inj in H. subst. now apply nth_error_In in E.
Qed.

Definition entry (clk : Z) (k : kbd) : Prop :=
  (k_clock k <= clk)%Z /\ exists text c, config_parse text = Ok (Some c) /\ reach (fun _ => True) c k.
Definition entries_ok (d : dstate) : Prop := (1 <= d_clock d)%Z /\ Forall (entry (d_clock d)) (d_ents d).
Definition ER (d d' : dstate) : Prop := entries_ok d -> entries_ok d'.

Lemma entry_later a b k : (a <= b)%Z -> entry a k -> entry b k.
Proof. intros H [A B]. split; [lia|exact B]. Qed.
Lemma ents_same d d' : d_ents d' = d_ents d -> d_clock d' = d_clock d -> ER d d'.
Proof. unfold ER, entries_ok. now intros -> ->. Qed.
Lemma Forall_upd {A} (P : A -> Prop) n x l : P x -> Forall P l -> Forall P (upd n x l).
Proof.
  intros Hx Hl. apply Forall_forall. intros y Hy. apply In_upd in Hy as [->|Hy]; [exact Hx|].
  rewrite Forall_forall in Hl. auto.
Qed.
Lemma ents_run fuel wr p ev d d' t : run_kbd fuel wr p ev d = Ok (d', t) -> ER d d'.
Proof.
  intros H [C F]. apply run_inv in H as (k & k1 & d1 & E1 & E2 & E3 & ->).
  apply deliver_ents in E3 as (A & _ & B & _). cbn [d_ents d_clock set_d_clock] in A, B.
  apply deref_in in E1. rewrite Forall_forall in F. destruct (F _ E1) as [Ck (text & c & Hp & Hr)].
  assert (M : (d_clock d <= k_clock k1)%Z).
  { apply kbd_process_events_steps in E2. apply steps_clock in E2. exact E2. }
  split; cbn [store d_clock d_ents set_d_ents]; rewrite B; [lia|]. rewrite A. apply Forall_upd.
  - split; [lia|]. exists text, c. split; [exact Hp|]. eapply reach_events; [|exact E2].
    eapply reach_outside; [exact Hr|]. now apply out_clock.
  - apply Forall_forall. intros x Hx. eapply entry_later; [exact M|auto].
Qed.
Lemma load_entries texts clock : (1 <= clock)%Z -> forall acc ents, load_files texts clock acc = Ok ents ->
  Forall (entry clock) acc -> Forall (entry clock) ents.
Proof.
  intros Hc. induction texts as [|t r IH]; cbn [load_files]; intros acc ents H F; [apply Ok_inj in H; now subst|].
  destruct (config_parse t) as [o| | |] eqn:E; cbn [bind] in H; try discriminate H.
  apply (IH _ _ H). destruct o as [c|]; [|exact F]. constructor; [|exact F].
  split; [cbn; lia|]. exists t, c. split; [exact E|]. now apply reach_init.
Qed.
Lemma eval_entries exp clk : forall ks ks' ok, eval_all ks exp = Ok (ks', ok) -> Forall (entry clk) ks -> Forall (entry clk) ks'.
Proof.
  induction ks as [|k r IH]; cbn [eval_all]; intros ks' ok H F; [apply Ok_inj in H; apply pair_equal_spec in H as [<- _]; constructor|].
  destruct (kbd_eval k exp) as [[k1 o1]| | |] eqn:E1; cbn [bind] in H; try discriminate H.
  destruct (eval_all r exp) as [[r1 o2]| | |] eqn:E2; cbn [bind] in H; try discriminate H.
  apply Ok_inj in H. apply pair_equal_spec in H as [<- _]. inversion F as [|? ? [Ck (text & c & Hp & Hr)] F']; subst.
  constructor; [|eauto]. split.
  - apply kbd_eval_shape in E1 as [c' ->]. exact Ck.
  - exists text, c. split; [exact Hp|]. eapply reach_eval; eauto.
Qed.
Lemma reload_entries texts grabs d d' : reload texts grabs d = Ok d' -> ER d d'.
Proof.
  intros H [C F]. apply reload_inv in H as (ents & E & ->).
  destruct (clear_ents (reload_base texts grabs d ents)) as (A & _ & B & _).
  unfold entries_ok. rewrite A, B. cbn. split; [exact C|]. eapply load_entries; eauto.
Qed.
Lemma handler_entries fuel wr ev ts d d' t : event_handler fuel wr ev ts d = Ok (d', t) -> ER d d'.
Proof.
  apply (handler_rel fuel wr ER (fun _ => True) True True); try (intros; apply ents_same; reflexivity).
  - intros a b c H1 H2 H. auto.
  - intros c s e. destruct (dsend_ents c s e) as (A & _ & B & _). now apply ents_same.
  - intros. eapply ents_run; eauto.
  - intros p k x y e H [C F]. split; [exact C|]. cbn [store d_ents d_clock set_d_ents]. apply Forall_upd; [|exact F].
    apply deref_in in H. rewrite Forall_forall in F. destruct (F _ H) as [Ck (text & c & Hp & Hr)]. split; [exact Ck|].
    exists text, c. split; [exact Hp|]. eapply reach_outside; [exact Hr|apply out_motion].
  - intros con e e' _ H.
    assert (X : same_ents e e'); [|destruct X as (A & _ & B & _); now apply ents_same].
    revert H. apply listener_keeps; intros; try (repeat split; fail). eapply same_ents_trans; eauto.
  - intros exp e ks ok _ H [C F]. split; [exact C|]. cbn [d_ents d_clock set_d_ents]. eapply eval_entries; eauto.
  - intros. eapply reload_entries; eauto.
  - destruct ev as [| | | |con m x g]; auto. unfold permitted. destruct (i_type m); auto.
Qed.
Lemma runs_entries fuel wr l : runs fuel wr l -> seen fuel wr entries_ok l.
Proof.
  assert (D : forall v d, entries_ok d -> entries_ok (set_d_devs v d)) by (intros v d H; exact H).
  induction 1 as [texts devs grabs ts l Hf H|r l l' Hr IH Hf H].
  - unfold start in H. destruct (reload _ _ _) as [d| | |] eqn:Er; cbn [bind] in H; try discriminate H.
    destruct (calls _ _ _ _ _) as [l1| | |] eqn:E; cbn [bind] in H; try discriminate H.
    apply Ok_inj in H. subst. cbn [lp_d].
    apply (calls_inv fuel wr entries_ok) in E; [exact E|intros; eapply handler_entries; eauto|].
    split; [|intros ? ? ? ? []]. cbn [lp_d]. apply D. eapply reload_entries; eauto. split; [cbn; lia|constructor].
  - eapply (round_inv fuel wr entries_ok (fun _ => True)); eauto.
    + intros. eapply handler_entries; eauto.
    + apply Forall_forall. auto.
Qed.
