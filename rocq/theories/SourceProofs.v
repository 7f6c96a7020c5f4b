(* C63: the keys sent to the host come from the keys struck and from the configuration. *)
From Verif Require Import Base Lib Types Keys MacroExec Kbd Steps Config Outside Hist Engine LiftOk SpecMods ModsProofs
  WfEvents SpecSource.
Local Open Scope N_scope.

Section Source.
(* keys that may be bound and reported, pressed, and released *)
Variables K P R : N -> Prop.
Hypothesis KP : forall x, K x -> x <> K_NOOP -> x <> K_EXTERNAL_MOUSE -> P x.
Hypothesis PR : forall x, P x -> R x.
Hypothesis Pmod : forall mk, In mk modifiers -> P (snd mk).

Definition d_from (d : desc) : Prop := match d with DKey x _ => K x | _ => True end.
Definition m_from (m : macro) : Prop :=
  forall e, In e m -> (forall x, step_presses e x -> P x) /\ R (m_data e mod 256).
Definition c_from (c : config) : Prop :=
  (forall l code, In l (c_layers c) -> d_from (ly_keymap l code))
  /\ (forall l ch, In l (c_layers c) -> In ch (ly_chords l) -> d_from (ch_d ch))
  /\ (forall d, In d (c_descs c) -> d_from d)
  /\ (forall m, In m (c_macros c) -> m_from m).
Definition o_from (o : oev) : Prop := match o with OKey x true => P x | OKey x false => R x | _ => True end.
Definition e_from (e : kev) : Prop := ev_code e = 0 \/ is_chord_code (ev_code e) = true \/ K (ev_code e).

Record from (k : kbd) : Prop := {
  fr_cfg : c_from (k_cfg k);
  fr_cache : Forall (fun e => d_from (ce_d e)) (k_cache k);
  fr_ac : Forall (fun a => d_from (ch_d (ac_chord a))) (k_achords k);
  fr_ac3 : length (k_achords k) = 3%nat;
  fr_pend : d_from (p_a1 (k_pend k)) /\ d_from (p_a2 (k_pend k)) /\ Forall e_from (p_queue (k_pend k));
  fr_chord : Forall e_from (h_queue (k_chord k));
  fr_ks : forall x, k_ks k x = true -> R x;
  fr_out : Forall o_from (k_out k) }.

(* everything but the keys and the trace is the same *)
Definition same_src (k k' : kbd) : Prop :=
  k_cfg k' = k_cfg k /\ k_cache k' = k_cache k /\ k_achords k' = k_achords k
  /\ k_pend k' = k_pend k /\ h_queue (k_chord k') = h_queue (k_chord k).
Lemma from_same k k' : same_src k k' -> (forall x, k_ks k' x = true -> R x) -> Forall o_from (k_out k') ->
  from k -> from k'.
Proof.
  intros (H1 & H2 & H3 & H4 & H5) Hk Ho [W1 W2 W3 W3' W4 W5 W6 W7].
  constructor; rewrite ?H1, ?H2, ?H3, ?H4, ?H5; auto.
Qed.
(* only bookkeeping changes *)
Lemma from_int k k' : same_src k k' -> k_ks k' = k_ks k -> k_out k' = k_out k -> from k -> from k'.
Proof. intros H E1 E2 W. apply (from_same k); auto; rewrite ?E1, ?E2; apply W. Qed.

Lemma from_emit k o : from k -> o_from o -> from (emit o k).
Proof. intros W H. apply (from_same k); auto; [repeat split|apply W|]. constructor; auto. apply W. Qed.
Lemma from_emits os : forall k, from k -> Forall o_from os -> from (emits os k).
Proof.
  intros k W H. apply (from_same k); auto; [repeat split|apply W|]. unfold emits. cbn [k_out set_k_out].
  apply Forall_app. split; [now apply Forall_rev|apply W].
Qed.
Lemma from_send k x p : from k -> (p = true -> x <> K_NOOP -> x <> K_EXTERNAL_MOUSE -> P x) -> from (send_key k x p).
Proof.
  intros W H. unfold send_key. destruct (_ || _) eqn:Eb; auto.
  apply orb_false_iff in Eb as [B1 B2]. apply N.eqb_neq in B1, B2. specialize (fun E => H E B1 B2). cbv beta in H.
  assert (W1 : from (if p then set_k_last_out x k else k)) by (destruct p; auto; apply (from_int k); auto; repeat split).
  set (k1 := if p then set_k_last_out x k else k) in *. clearbody k1.
  destruct (Bool.eqb (k_ks k1 x) p) eqn:E; auto. apply from_emit.
  - apply (from_same k1); auto; [repeat split| |apply W1]. intros y. cbn [k_ks set_k_ks]. unfold fupd.
    destruct (N.eqb_spec y x) as [->|]; [intros ->; auto|apply W1].
  - destruct p; cbn; auto. destruct (k_ks k1 x) eqn:Ek; [|discriminate]. eapply fr_ks; eauto.
Qed.
Lemma from_reset k : from k -> from (reset_keystate k).
Proof.
  intros W. unfold reset_keystate. apply fold_left_inv; auto. intros k0 i W0 _. unfold reset_key.
  destruct (k_ks k0 (N.of_nat i)) eqn:E; auto.
  apply (from_same k0); auto; [repeat split| |].
  - intros y. cbn. unfold fupd. destruct (N.eqb_spec y (N.of_nat i)); [discriminate|apply W0].
  - cbn. constructor; [exact (fr_ks _ W0 _ E)|apply W0].
Qed.
Lemma Pctrl : P K_LEFTCTRL.
Proof. apply (Pmod (MOD_CTRL, K_LEFTCTRL)). cbn. auto 10. Qed.
Lemma from_mods inh k m : from k -> from (set_mods inh k m).
Proof.
  intros W. unfold set_mods. apply fold_left_inv; auto. intros k0 [mask code] W0 Hin. unfold set_mod1.
  apply Pmod in Hin. cbn [snd] in Hin.
  destruct (hasmod mask m), (k_ks k0 code); auto; [apply from_send; auto|].
  unfold clear_mod. destruct (_ && _); [|apply from_send; auto; discriminate].
  apply from_send; [|discriminate]. apply from_send; [|discriminate]. apply from_send; auto. intros; apply Pctrl.
Qed.
Lemma from_um inh k e m : from k -> from (update_mods inh k e m).
Proof. apply from_mods. Qed.

Lemma mexec_from t : forall m held, m_from m -> (forall es, held = Some es -> m_from es) ->
  Forall o_from (mexec t held m).
Proof.
  assert (S : forall z, Forall o_from (if negb (z =? 0)%Z then [sleep_of z] else [])).
  { intros. destruct (negb _); repeat constructor. }
  induction m as [|e m IH]; intros held Hm Hh; cbn [mexec]; [constructor|].
  assert (He := Hm e (or_introl eq_refl)). destruct He as [He1 He2].
  rewrite !Forall_app. split; [|split; auto].
  - unfold step_presses in He1. destruct (m_type e).
    + unfold mexec_keyseq. rewrite !Forall_app. repeat split.
      * apply Forall_map, Forall_forall. intros mk Hk. apply filter_In in Hk as [Hk _]. cbn. auto.
      * destruct (_ && _); repeat constructor.
      * repeat constructor; cbn; auto.
      * apply Forall_map, Forall_forall. intros mk Hk. apply filter_In in Hk as [Hk _]. cbn. auto.
    + repeat constructor; cbn; auto.
    + destruct held as [es|]; [|constructor]. apply Forall_map, Forall_forall. intros x Hx. apply (Hh _ eq_refl x Hx).
    + apply Forall_forall. intros o Ho. apply in_flat_map in Ho as [x [Hx Ho]]. destruct Ho as [<-|[<-|[]]]; cbn; auto.
    + repeat constructor.
  - apply IH; [intros x Hx; apply Hm; now right|].
    assert (G1 : m_from [e]) by (intros x [<-|[]]; apply Hm; now left).
    assert (G2 : forall es, held = Some es -> m_from (es ++ [e])).
    { intros es E x Hx. apply in_app_iff in Hx as [Hx|Hx]; [eapply Hh; eauto|now apply G1]. }
    destruct (m_type e), held; intros es' E; try discriminate; injection E as <-; auto.
Qed.
Lemma from_macro k dl m : from k -> m_from m -> from (execute_macro k dl m).
Proof.
  intros W Hm. unfold execute_macro.
  assert (G : from (emits (macro_execute m (c_macro_seq_timeout (k_cfg k))) (update_mods false k (Some dl) 0))).
  { apply from_emits; [now apply from_um|]. apply mexec_from; auto. discriminate. }
  destruct m as [|[[] data] [|? ?]]; auto.
  destruct (Hm _ (or_introl eq_refl)) as [H1 H2]. cbn in H1, H2.
  apply from_send; [|discriminate]. apply from_send; [now apply from_um|auto].
Qed.

(* ---- what the state refers to ------------------------------------------------------ *)
Lemma from_macro_at k i m : from k -> macro_at k i = Ok m -> m_from m.
Proof.
  intros W H. unfold macro_at in H. bauto H.
  destruct (Nat.ltb_spec i (length (c_macros (k_cfg k)))).
  - apply (fr_cfg _ W). now apply nth_In.
  - rewrite nth_overflow by lia. intros e [].
Qed.
Lemma from_desc_at k i d : from k -> desc_at k i = Ok d -> d_from d.
Proof.
  intros W H. unfold desc_at in H. bauto H.
  destruct (Nat.ltb_spec i (length (c_descs (k_cfg k)))).
  - apply (proj1 (proj2 (proj2 (fr_cfg _ W)))). now apply nth_In.
  - rewrite nth_overflow by lia. exact Logic.I.
Qed.
Lemma from_keymap c i code : c_from c -> d_from (ly_keymap (nth i (c_layers c) zero_layer) code).
Proof.
  intros W. destruct (Nat.ltb_spec i (length (c_layers c))).
  - apply (proj1 W). now apply nth_In.
  - rewrite nth_overflow by lia. exact Logic.I.
Qed.
Lemma from_cache_nth k i : from k -> d_from (ce_d (nth i (k_cache k) zero_ce)).
Proof. intros W. apply (Forall_nth_d (fun e => d_from (ce_d e))); [apply W|exact Logic.I]. Qed.
Lemma from_cache k ca : from k -> Forall (fun e => d_from (ce_d e)) ca -> from (set_k_cache ca k).
Proof. intros [W1 W2 W3 W3' W4 W5 W6 W7] H. constructor; auto. Qed.
Lemma from_cache_upd k i e : from k -> d_from (ce_d e) -> from (set_k_cache (upd i e (k_cache k)) k).
Proof. intros W H. apply from_cache; auto. apply Forall_upd; auto. apply W. Qed.
Lemma from_replace k code d : from k -> d_from d -> from (cache_replace_d k code d).
Proof. intros W H. unfold cache_replace_d. destruct (cache_find _ _ _); auto. now apply from_cache_upd. Qed.
Lemma from_cache_set k code ent k' : from k -> (forall e, ent = Some e -> d_from (ce_d e)) ->
  cache_set k code ent = Some k' -> from k'.
Proof.
  intros W He H. unfold cache_set in H. destruct (cache_slot _ _ _ _); [|discriminate].
  injection H as <-. apply from_cache_upd; auto. destruct ent; cbn; [now apply He|now apply from_cache_nth].
Qed.

(* ---- layers ------------------------------------------------------------------------ *)
Lemma from_lsi k i l : from k -> from (set_lsi i l k).
Proof. apply from_int; auto; repeat split. Qed.
Lemma from_activate k code i k' : activate_layer k code i = Ok k' -> from k -> from k'.
Proof.
  unfold activate_layer. intros H W. bauto H. apply from_emit; [|exact Logic.I].
  set (k1 := set_k_clock _ _).
  assert (W1 : from k1) by (apply (from_int k); auto; repeat split).
  apply from_cache; auto. unfold set_ce_layer. destruct (cache_find _ _ _); [|apply W1].
  apply Forall_upd; [apply W1|]. apply (from_cache_nth k1 n W1).
Qed.
Lemma from_deactivate k i k' : deactivate_layer k i = Ok k' -> from k -> from k'.
Proof. unfold deactivate_layer. intros H W. bauto H. apply from_emit; [now apply from_lsi|exact Logic.I]. Qed.
Lemma from_drops n : forall k i k', drop_oneshots n k i = Ok k' -> from k -> from k'.
Proof.
  induction n as [|n IH]; cbn [drop_oneshots]; intros k i k' H W; [now apply Ok_inj in H; subst|].
  bstep H k1 E. apply IH in H; auto. apply from_lsi. eapply from_deactivate; eauto.
Qed.
Lemma from_oneshot k k' : clear_oneshot k = Ok k' -> from k -> from k'.
Proof.
  unfold clear_oneshot. intros H W. bstep H k1 E. apply Ok_inj in H. subst k'.
  apply (from_int k1); [repeat split..|]. revert W E. generalize (seq 0 (nlayers k)) as l. intros l. revert k.
  induction l as [|i l IH]; cbn [clear_oneshot_layers]; intros k W E; [now apply Ok_inj in E; subst|].
  bstep E k2 E2. eapply IH; [|exact E]. eapply from_drops; eauto.
Qed.
Lemma from_clear k k' : clear k = Ok k' -> from k -> from k'.
Proof.
  unfold clear. intros H W. bstep H k1 E1. bstep H k2 E2. apply Ok_inj in H. subst k'.
  apply from_oneshot in E1; auto. apply from_reset. apply (from_int k2); [repeat split..|].
  revert E1 E2. generalize (seq 1 (nlayers k1 - 1)) as l. intros l. revert k1.
  induction l as [|i l IH]; cbn [clear_toggled]; intros k1 W1 E; [now apply Ok_inj in E; subst|].
  bstep E k3 E3. eapply IH; [|exact E]. destruct (_ && _); [|now apply Ok_inj in E3; subst].
  eapply from_deactivate; [exact E3|]. now apply from_lsi.
Qed.
Lemma from_setlayout k i k' : setlayout k i = Ok k' -> from k -> from k'.
Proof.
  unfold setlayout. intros H W. bstep H u E0. bstep H k1 E1. apply Ok_inj in H. subst k'.
  apply from_clear in E1; auto. apply from_emit; [|exact Logic.I].
  assert (G : from (fold_left drop_layout (seq 1 (nlayers k1 - 1)) k1)).
  { apply fold_left_inv; auto. intros k0 j W0 _. unfold drop_layout. destruct (is_layout _); auto. now apply from_lsi. }
  destruct (Nat.eqb i 0); auto. now apply from_lsi.
Qed.
Lemma from_schedule k t k' : schedule_timeout k t = Ok k' -> from k -> from k'.
Proof. unfold schedule_timeout. intros H W. bauto H. apply (from_int k); auto; repeat split. Qed.

(* ---- actions ----------------------------------------------------------------------- *)
Ltac fin := try solve [eauto using from_activate, from_deactivate, from_um, from_lsi, from_send, from_macro, from_macro_at,
  from_oneshot, from_clear, from_setlayout, from_schedule, from_cache_upd].
Lemma from_swap k dl i k' : do_swap k dl i = Ok k' -> from k -> from k'.
Proof.
  unfold do_swap. intros H W. bstep H u1 E1. bstep H u2 E2.
  destruct (l_toggled _); [|destruct (negb _)].
  - bstep H k1 E3. bstep H k3 E4. apply Ok_inj in H. subst k'. apply from_um, from_lsi. fin.
  - bstep H k1 E3. bstep H k3 E4. apply Ok_inj in H. subst k'. apply from_um, from_lsi. fin.
  - destruct (swap_slot _ _ _ _); [|now apply Ok_inj in H; subst].
    bstep H k1 E3. bstep H k3 E4. apply Ok_inj in H. subst k'. apply from_um.
    eapply from_activate; [exact E4|]. eapply from_deactivate; [exact E3|]. apply from_cache_upd; [exact W|exact Logic.I].
Qed.
Lemma from_pend k p : from k -> d_from (p_a1 p) -> d_from (p_a2 p) -> Forall e_from (p_queue p) -> from (set_k_pend p k).
Proof. intros [W1 W2 W3 W3' W4 W5 W6 W7] H1 H2 H3. constructor; auto. Qed.
Lemma from_set_pending k code dl t b a1 a2 k' : from k -> d_from a1 -> d_from a2 ->
  set_pending k code dl t b a1 a2 = Ok k' -> from k'.
Proof.
  intros W H1 H2 H. unfold set_pending in H. eapply from_schedule; [exact H|]. apply from_pend; auto. apply W.
Qed.
Lemma from_pd_swap k i dl mm p k' : pd_swap k i dl mm p = Ok k' -> from k ->
  (forall m, mm = Some m -> m_from m) -> from k'.
Proof.
  unfold pd_swap. intros H W Hm. destruct p.
  - bstep H k1 E. apply Ok_inj in H. subst k'. apply from_swap in E; auto. destruct mm; auto. apply from_macro; auto.
  - apply Ok_inj in H. subst k'. destruct mm as [[|[[] d] [|? ?]]|]; auto. apply from_um, from_send; auto. discriminate.
Qed.

Lemma from_pd_oneshot k code i dl p time k' : pd_oneshot k code i dl p time = Ok k' -> from k -> from k'.
Proof.
  unfold pd_oneshot. intros H W. destruct p; [|destruct (k_latch k)].
  - bstep H k1 E. apply Ok_inj in H. subst k'. apply from_activate in E; auto.
    apply (from_int (update_mods false k1 (Some dl) 0)); [repeat split..|]. now apply from_um.
  - bstep H u E. set (k1 := set_lsi i _ k) in H. assert (W1 : from k1) by now apply from_lsi.
    destruct (_ =? 0)%Z; [now apply Ok_inj in H; subst|]. eapply from_schedule; [exact H|].
    apply (from_int k1); auto; repeat split.
  - bstep H k1 E. apply Ok_inj in H. subst k'. apply from_um. eapply from_deactivate; eauto.
Qed.
Lemma from_pd_layer k code i p k' : pd_layer k code i p = Ok k' -> from k -> from k'.
Proof.
  unfold pd_layer. intros H W. bstep H k1 E. apply Ok_inj in H. subst k'. apply from_um. destruct p; fin.
Qed.
Lemma from_pd_macro k m t r dl p time k' : pd_macro k m t r dl p time = Ok k' -> from k -> from k'.
Proof.
  unfold pd_macro. intros H W. destruct p; [|now apply Ok_inj in H; subst].
  bstep H mm Em. bstep H k1 E1. cbv zeta in H. eapply from_schedule; [exact H|].
  apply (from_int (execute_macro k1 dl mm)); [repeat split..|].
  apply from_macro; [|eapply from_macro_at; eauto]. eapply from_oneshot; [exact E1|].
  apply (from_int k); auto; repeat split.
Qed.
Lemma from_pd_toggle k code i p k' : pd_toggle k code i p = Ok k' -> from k -> from k'.
Proof.
  unfold pd_toggle. intros H W. destruct p; [|now apply Ok_inj in H; subst].
  bstep H u E. cbv zeta in H. bstep H k2 E2. eapply from_oneshot; [exact H|]. apply from_um.
  destruct (l_toggled _); fin.
Qed.

Lemma from_pd : forall fuel k code d dl p time k', process_descriptor fuel k code d dl p time = Ok k' ->
  from k -> d_from d -> from k'.
Proof.
  induction fuel as [|fuel IH]; intros k code d dl p time k' H W Hd; [discriminate|].
  cbn [process_descriptor] in H. bstep H k0 E0. bstep H k1 E1. apply Ok_inj in H. subst k'.
  assert (W0 : from k0).
  { unfold pre_macro in E0. destruct p; [|now apply Ok_inj in E0; subst].
    destruct d; try (now apply Ok_inj in E0; subst);
      (bstep E0 mm Em; apply Ok_inj in E0; subst k0; fin). }
  clear E0 W k. enough (W1 : from k1) by (destruct p; auto; apply (from_int k1); auto; repeat split).
  destruct d; cbn [d_from] in Hd.
  - now apply Ok_inj in E1; subst.
  - unfold pd_key in E1. bstep E1 k2 E2. apply Ok_inj in E1. subst k1.
    enough (from k2) by (destruct (_ || _); auto; apply (from_int k2); auto; repeat split).
    destruct p.
    + eapply from_oneshot; [exact E2|]. apply from_send; auto. apply from_um.
      destruct (k_ks k0 code0); auto. apply from_send; auto; discriminate.
    + apply Ok_inj in E2. subst k2. apply from_um, from_send; auto; discriminate.
  - eapply from_pd_oneshot; eauto.
  - eapply from_pd_oneshot; eauto.
  - eapply from_pd_layer; eauto.
  - eapply from_pd_swap; [exact E1|auto|discriminate].
  - bstep E1 mm Em. eapply from_pd_swap; [exact E1|auto|]. intros ? [= <-]. eauto using from_macro_at.
  - eapply from_pd_layer; eauto.
  - destruct p; [|now apply Ok_inj in E1; subst]. eapply from_setlayout; eauto.
  - destruct p; [|now apply Ok_inj in E1; subst]. eapply from_clear; eauto.
  - destruct p; [|now apply Ok_inj in E1; subst]. bstep E1 mm Em. bstep E1 k2 E2. apply Ok_inj in E1. subst k1.
    apply from_macro; [eapply from_clear; eauto|eapply from_macro_at; eauto].
  - bstep E1 ac Ea. apply from_desc_at in Ea; auto. destruct p.
    + bstep E1 k2 E2. apply Ok_inj in E1. subst k1. apply from_um. eapply from_activate; [exact E2|].
      apply (from_int k0); auto; repeat split.
    + bstep E1 k2 E2. cbv zeta in E1. apply from_deactivate in E2; auto.
      assert (W2 : from (update_mods false k2 None 0)) by now apply from_um.
      destruct (_ && _); [|now apply Ok_inj in E1; subst].
      assert (G : forall k3, process_descriptor fuel (update_mods false k2 None 0) code ac dl true time = Ok k3 ->
                process_descriptor fuel k3 code ac dl false time = Ok k1 -> from k1).
      { intros k3 A B. eapply IH; [exact B| |auto]. eapply IH; [exact A|auto|auto]. }
      destruct ac; try (bstep E1 k3 E3; eapply G; eassumption).
      bstep E1 mm Em. apply Ok_inj in E1. subst k1. apply from_macro; auto. eapply from_macro_at; eauto.
  - destruct p; [|now apply Ok_inj in E1; subst]. bstep E1 ac Ea. apply from_desc_at in Ea; auto.
    eapply from_set_pending; [exact W0|exact Ea| |exact E1]. exact Logic.I.
  - destruct p; [|now apply Ok_inj in E1; subst]. bstep E1 ac Ea. apply from_desc_at in Ea; auto.
    eapply from_set_pending; [exact W0|exact Ea| |exact E1]. exact Logic.I.
  - destruct p; [|now apply Ok_inj in E1; subst]. bstep E1 ac Ea. apply from_desc_at in Ea; auto.
    bstep E1 k2 E2. apply Ok_inj in E1. subst k1. apply from_replace; auto. eapply IH; eauto.
  - eapply from_pd_toggle; eauto.
  - eapply from_pd_toggle; eauto.
  - eapply from_pd_macro; eauto.
  - eapply from_pd_macro; eauto.
  - destruct p; [|now apply Ok_inj in E1; subst]. bstep E1 cm Ec. bstep E1 k2 E2. apply Ok_inj in E1. subst k1.
    apply from_um. eapply from_oneshot; [exact E2|]. apply from_emit; [auto|exact Logic.I].
  - destruct p; [|now apply Ok_inj in E1; subst]. bstep E1 x1 Ex1. bstep E1 x2 Ex2.
    apply from_desc_at in Ex1; auto. apply from_desc_at in Ex2; auto.
    eapply from_set_pending; [exact W0|exact Ex1|exact Ex2|exact E1].
  - apply Ok_inj in E1. subst k1. apply (from_int k0); auto; repeat split.
  - apply Ok_inj in E1. subst k1. apply (from_int k0); auto; repeat split.
Qed.

(* ---- chords ------------------------------------------------------------------------ *)
Lemma from_h k h : from k -> Forall e_from (h_queue h) -> from (set_k_chord h k).
Proof. intros [W1 W2 W3 W3' W4 W5 W6 W7] H. constructor; auto. Qed.
Lemma e_chord i p t : (i < 3)%nat -> e_from (mkKev (chord_code i) p t).
Proof.
  intros H. right; left. cbn [ev_code]. unfold chord_code, is_chord_code, K_CHORD_1, K_CHORD_MAX.
  apply andb_true_iff. split; lia.
Qed.
Lemma free_chord_lt : forall acs i j, free_chord acs i = Some j -> (i <= j < i + length acs)%nat.
Proof.
  induction acs as [|a r IH]; cbn [free_chord length]; intros i j H; [discriminate|].
  destruct (ac_active a); [|injection H as <-; lia]. apply IH in H. lia.
Qed.
Lemma from_ac k i a : from k -> d_from (ch_d (ac_chord a)) -> from (set_k_achords (upd i a (k_achords k)) k).
Proof.
  intros [W1 W2 W3 W3' W4 W5 W6 W7] H. constructor; auto; cbn [k_achords set_k_achords].
  - now apply Forall_upd.
  - now rewrite upd_length.
Qed.
Lemma from_deref k p ch : from k -> deref_match k p = Ok ch -> d_from (ch_d ch).
Proof.
  intros W H. unfold deref_match in H. destruct p as [li ci]. bauto H. unfold layer_at.
  destruct (Nat.ltb_spec li (length (c_layers (k_cfg k)))).
  - set (l := nth li _ _). destruct (Nat.ltb_spec ci (length (ly_chords l))).
    + apply (proj1 (proj2 (fr_cfg _ W)) l); [now apply nth_In|now apply nth_In].
    + rewrite (nth_overflow (ly_chords l)) by lia. exact Logic.I.
  - rewrite (nth_overflow (c_layers _)) by lia. destruct ci; exact Logic.I.
Qed.
Lemma Forall_skipn {A} (Q : A -> Prop) n l : Forall Q l -> Forall Q (skipn n l).
Proof. intros H. rewrite <- (firstn_skipn n l) in H. now apply Forall_app in H. Qed.

Lemma from_resolve k time r : from k -> resolve_plan k = Ok r -> plan_fine from e_from time r.
Proof.
  intros W H. unfold resolve_plan in H. cbv zeta in H.
  assert (W0 : from (set_cstate CsResolving k)) by (apply from_h; auto; apply W).
  set (k0 := set_cstate CsResolving k) in *. clearbody k0.
  destruct (h_match (k_chord k0)).
  - bstep H ch Ec. apply from_deref in Ec; auto. destruct (free_chord (k_achords k0) 0) as [i|] eqn:Ei; [|discriminate].
    apply Ok_inj in H. subst r. unfold plan_fine. apply free_chord_lt in Ei. rewrite (fr_ac3 _ W0) in Ei.
    split; [now apply from_ac|]. split; [intros ? [= <-]; apply e_chord; lia|].
    intros evs E. destruct (Nat.ltb _ _); [discriminate|]. injection E as <-. apply Forall_skipn. apply W0.
  - apply Ok_inj in H. subst r. unfold plan_fine. split; auto. split; [discriminate|]. intros ? [= <-]. apply W0.
Qed.
Lemma from_abort k time r : from k -> abort_plan k = Ok r -> plan_fine from e_from time r.
Proof. intros W H. eapply from_resolve; [|exact H]. apply from_h; auto; apply W. Qed.
Lemma from_matched k c time r : from k -> matched_plan k c time = Ok r -> plan_fine from e_from time r.
Proof.
  intros W H. unfold matched_plan in H. cbv zeta in H.
  assert (W1 : from (set_k_chord (set_h_last time (k_chord k)) k)) by (apply from_h; auto; apply W).
  set (k1 := set_k_chord _ k) in *. clearbody k1.
  assert (W2 : forall s, from (set_cstate s k1)) by (intros; apply from_h; auto; apply W1).
  destruct c; try (destruct (_ =? 0)%Z; [eapply from_resolve; eauto|]);
    (bstep H k2 E2; apply Ok_inj in H; subst r; eapply from_schedule; eauto).
Qed.
Lemma from_enqueue k code p t k' : from k -> e_from (mkKev code p t) -> enqueue_chord_event k code p t = Ok k' -> from k'.
Proof.
  intros W He H. unfold enqueue_chord_event in H. bauto H; auto. apply from_h; auto. cbn. apply Forall_app. split; [apply W|auto].
Qed.
Lemma from_check k r k' : from k -> check_chord_match k = (r, k') -> from k'.
Proof.
  intros W H. unfold check_chord_match in H. destruct (fold_left _ _ _) as [[[[]|] ?] ?]; injection H as <- <-; auto.
  apply from_h; auto; apply W.
Qed.
Lemma from_chord k code p t r : from k -> e_from (mkKev code p t) -> chord_plan k code p t = Ok r ->
  plan_fine from e_from t r.
Proof.
  intros W He H. unfold chord_plan in H. cbv zeta in H.
  destruct (if negb (code =? 0) && negb p then chord_of_key (k_achords k) code 0 else None) as [i|] eqn:E.
  - destruct (_ && _); [|discriminate]. apply chord_of_key_lt in E. rewrite (fr_ac3 _ W) in E.
    unfold chord_up in H. cbv zeta in H. apply Ok_inj in H. subst r.
    assert (G : d_from (ch_d (ac_chord (nth i (k_achords k) zero_ac)))).
    { apply (Forall_nth_d (fun a => d_from (ch_d (ac_chord a)))); [apply W|exact Logic.I]. }
    match goal with |- plan_fine _ _ _ (?a, _) => assert (W1 : from a) by now apply from_ac end.
    destruct (existsb _ _); cbn [plan_fine]; auto. split; auto. apply e_chord. lia.
  - clear E. destruct (h_state (k_chord k)).
    + apply Ok_inj in H. subst r. exact W.
    + bstep H k1 E1. apply from_enqueue in E1; auto; [|apply from_h; [exact W|constructor]].
      destruct (check_chord_match k1) as [c k2] eqn:E2. apply from_check in E2; auto.
      destruct c; try (eapply from_matched; eauto; fail). apply Ok_inj in H. subst r. exact E2.
    + destruct (code =? 0).
      * destruct (_ <=? _)%Z; [|apply Ok_inj in H; subst r; exact W].
        destruct (h_match (k_chord k)); [|eapply from_abort; eauto].
        destruct (0 <? _)%Z; [|eapply from_resolve; eauto].
        bstep H k1 E1. apply Ok_inj in H. subst r. apply from_schedule in E1; auto. apply from_h; auto; apply E1.
      * bstep H k1 E1. apply from_enqueue in E1; auto. destruct (negb p); [eapply from_abort; eauto|].
        destruct (check_chord_match k1) as [c k2] eqn:E2. apply from_check in E2; auto.
        destruct c; try (eapply from_matched; eauto; fail). eapply from_abort; eauto.
    + destruct (code =? 0).
      * destruct (_ <=? _)%Z; [eapply from_resolve; eauto|apply Ok_inj in H; subst r; exact W].
      * bstep H k1 E1. apply from_enqueue in E1; auto.
        destruct (negb p); [|apply Ok_inj in H; subst r; exact E1].
        destruct (h_match (k_chord k1)); [|discriminate]. bstep H ch Ec.
        destruct (in_keys _ _); [eapply from_abort; eauto|apply Ok_inj in H; subst r; exact E1].
Qed.

(* ---- undecided keys ---------------------------------------------------------------- *)
Lemma from_decide k p a t k' : from k -> d_from (p_a1 p) -> d_from (p_a2 p) -> d_from a -> decide k p a t = Ok k' -> from k'.
Proof.
  intros W H1 H2 Ha H. unfold decide in H. cbv zeta in H.
  set (k1 := set_k_pend (set_p_code 0 (set_p_queue [] p)) k) in H.
  assert (W1 : from k1) by (apply from_pend; auto; constructor).
  eapply from_pd; [exact H| |exact Ha].
  destruct (cache_set k1 (p_code p) _) eqn:E; auto. eapply from_cache_set; [exact W1| |exact E].
  intros e [= <-]. exact Ha.
Qed.
Lemma from_pending k code p t r : from k -> e_from (mkKev code p t) -> pending_plan k code p t = Ok r ->
  pplan_ok from e_from r.
Proof.
  intros W He H. unfold pending_plan in H. cbv zeta in H. destruct (fr_pend _ W) as [P1 [P2 P3]].
  destruct (_ =? 0); [apply Ok_inj in H; subst r; exact W|].
  destruct (negb (code =? 0) && _); [discriminate|].
  destruct (_ && _ && _ && _); [apply Ok_inj in H; subst r; exact W|].
  set (p1 := if code =? 0 then k_pend k else _) in H.
  assert (E : d_from (p_a1 p1) /\ d_from (p_a2 p1) /\ Forall e_from (p_queue p1)).
  { subst p1. destruct (code =? 0); auto. cbn. rewrite Forall_app. auto. }
  clearbody p1. destruct E as [E1 [E2 E3]].
  destruct (has_op _).
  - bstep H k3 Ek. apply Ok_inj in H. subst r. split; auto.
    apply from_decide in Ek; auto. destruct (pending_action_in p1 code p t) as [->|[->| ->]]; auto. exact Logic.I.
  - apply Ok_inj in H. subst r. now apply from_pend.
Qed.

(* ---- the rest ---------------------------------------------------------------------- *)
Lemma from_lookup k code : from k -> is_chord_code code = true \/ K code -> d_from (fst (lookup_descriptor k code)).
Proof.
  intros W Hc. unfold lookup_descriptor. destruct (is_chord_code code).
  - cbn [fst]. apply (Forall_nth_d (fun a => d_from (ch_d (ac_chord a)))); [apply W|exact Logic.I].
  - destruct Hc as [|Hc]; [discriminate|].
    assert (G1 : d_from (snd (fst (fold_left (lookup_step k code) (seq 0 (nlayers k)) (0%Z, DNone, 0%nat))))).
    { apply (fold_left_inv (fun a : Z * desc * nat => d_from (snd (fst a)))); [|exact Logic.I].
      intros [[mx d] dl] i H _. unfold lookup_step. destruct (is_active k i); auto.
      destruct (_ && _); auto. apply from_keymap, W. }
    destruct (fold_left (lookup_step k code) _ _) as [[mx1 d1] dl1]. cbn [fst snd] in G1.
    assert (G2 : d_from (snd (fst (fold_left (composite_step k code) (seq 0 (nlayers k)) (0%nat, d1, dl1))))).
    { apply (fold_left_inv (fun a : nat * desc * nat => d_from (snd (fst a)))); [|exact G1].
      intros [[mx d] dl] i H _. unfold composite_step. destruct (is_composite _); auto.
      destruct (_ && _ && _); auto. apply from_keymap, W. }
    destruct (fold_left (composite_step k code) _ _) as [[mx2 d2] dl2]. cbn [fst snd] in G2.
    destruct (has_op d2); auto.
Qed.
Lemma from_rest k code p t k' : from k -> e_from (mkKev code p t) -> rest_step k code p t = Ok k' -> from k'.
Proof.
  intros W He H. unfold rest_step in H. bstep H k1 E1. bstep H k2 E2.
  assert (W1 : from k1).
  { unfold expire_oneshot in E1. destruct (_ && _); [|now apply Ok_inj in E1; subst].
    bstep E1 k3 E3. apply Ok_inj in E1. subst k1. apply from_um. eapply from_oneshot; eauto. }
  assert (W2 : from k2).
  { unfold run_active_macro in E2. destruct (k_amacro k1) as [m|]; [|now apply Ok_inj in E2; subst].
    destruct (negb _).
    - apply Ok_inj in E2. subst k2. apply from_um. apply (from_int k1); auto; repeat split.
    - destruct (_ <=? _)%Z; [|now apply Ok_inj in E2; subst].
      bstep E2 mm Em. cbv zeta in E2. eapply from_schedule; [exact E2|].
      apply (from_int (execute_macro k1 (k_amacro_layer k1) mm)); [repeat split..|].
      apply from_macro; auto. eapply from_macro_at; eauto. }
  clear W W1 E1 E2 k k1. unfold handle_key in H.
  destruct (N.eqb_spec code 0) as [|Hn]; [now apply Ok_inj in H; subst|].
  assert (Hc : is_chord_code code = true \/ K code) by (destruct He as [|]; auto; contradiction).
  destruct p.
  - destruct (cache_get k2 code); [now apply Ok_inj in H; subst|].
    pose proof (from_lookup k2 code W2 Hc) as G. destruct (lookup_descriptor k2 code) as [d dl]. cbn [fst] in G.
    destruct (cache_set _ _ _) as [k3|] eqn:E; [|now apply Ok_inj in H; subst].
    eapply from_pd; [exact H| |exact G]. eapply from_cache_set; [exact W2| |exact E]. intros e [= <-]. exact G.
  - destruct (cache_get k2 code) as [i|]; [|now apply Ok_inj in H; subst].
    pose proof (from_cache_nth k2 i W2) as G.
    destruct (cache_set _ _ _) as [k3|] eqn:E; [|now apply Ok_inj in H; subst].
    eapply from_pd; [exact H| |exact G]. refine (from_cache_set _ _ _ _ W2 _ E). discriminate.
Qed.

Lemma from_events fuel k evs k' t : from k -> Forall e_from evs -> kbd_process_events fuel k evs = Ok (k', t) -> from k'.
Proof.
  apply liftok_events.
  - intros e t0 _ _. now left.
  - intros. eapply from_chord; eauto.
  - intros k0 W. apply from_h; auto; apply W.
  - intros. eapply from_pending; eauto.
  - intros. eapply from_rest; eauto.
  - intros k0 e W _. apply (from_int k0); auto; repeat split.
Qed.
Lemma from_new c clk : c_from c -> from (new_keyboard c clk).
Proof.
  intros H. constructor; auto.
  - apply Forall_forall. intros e He. apply repeat_spec in He. subst e. exact Logic.I.
  - apply Forall_forall. intros e He. apply repeat_spec in He. subst e. exact Logic.I.
  - cbn. auto.
  - constructor.
  - discriminate.
  - constructor.
Qed.
Lemma from_set_cfg k c : from k -> c_from c -> from (set_k_cfg c k).
Proof. intros [W1 W2 W3 W3' W4 W5 W6 W7] H. constructor; auto. Qed.
Lemma from_outside k k' : from k -> outside k k' -> from k'.
Proof. intros W H. destruct H; apply (from_int k); auto; repeat split. Qed.
End Source.

(* ---- weaker conditions -------------------------------------------------------------- *)
Section Weaken.
Variables Q P R Q' P' R' : N -> Prop.
Hypothesis HQ : forall x, Q x -> Q' x.
Hypothesis HP : forall x, P x -> P' x.
Hypothesis HR : forall x, R x -> R' x.
Lemma d_from_mono d : d_from Q d -> d_from Q' d.
Proof. destruct d; cbn; auto. Qed.
Lemma m_from_mono m : m_from P R m -> m_from P' R' m.
Proof. intros H e He. destruct (H e He) as [H1 H2]. split; auto. Qed.
Lemma c_from_mono c : c_from Q P R c -> c_from Q' P' R' c.
Proof.
  intros (H1 & H2 & H3 & H4). split; [|split; [|split]]; intros.
  - apply d_from_mono; eauto.
  - apply d_from_mono; eauto.
  - apply d_from_mono; eauto.
  - apply m_from_mono; eauto.
Qed.
Lemma e_from_mono e : e_from Q e -> e_from Q' e.
Proof. intros [H|[H|H]]; unfold e_from; auto. Qed.
Lemma from_mono k : from Q P R k -> from Q' P' R' k.
Proof.
  intros [W1 W2 W3 W3' (A & B & C) W5 W6 W7]. constructor; auto.
  - now apply c_from_mono.
  - eapply Forall_impl; [|exact W2]. intros; now apply d_from_mono.
  - eapply Forall_impl; [|exact W3]. intros; now apply d_from_mono.
  - split; [now apply d_from_mono|]. split; [now apply d_from_mono|]. eapply Forall_impl; [|exact C]. apply e_from_mono.
  - eapply Forall_impl; [|exact W5]. apply e_from_mono.
  - eapply Forall_impl; [|exact W7]. intros [x []| | |]; cbn; auto.
Qed.
End Weaken.

(* ---- the histories of one keyboard --------------------------------------------------- *)
Definition presses (cs : list config) (s : list N) (x : N) : Prop :=
  In x s \/ (exists bit, is_modifier bit x) \/ exists c, In c cs /\ mentions c x.
Definition releases (cs : list config) (s : list N) (x : N) : Prop :=
  presses cs s x \/ exists c, In c cs /\ miscounted c x.
Lemma presses_mods cs s mk : In mk modifiers -> presses cs s (snd mk).
Proof. intros H. right; left. cbn in H. decompose [or] H; subst; cbn; try contradiction; eexists; constructor. Qed.
Lemma config_from cs s c : In c cs -> c_from (presses cs s) (presses cs s) (releases cs s) c.
Proof.
  intros Hc. assert (G : forall x, mentions c x -> presses cs s x) by (intros; right; right; eauto).
  repeat split.
  - intros l code Hl. destruct (ly_keymap l code) eqn:E; cbn; auto. apply G. eapply men_layer; eauto.
  - intros l ch Hl Hch. destruct (ch_d ch) eqn:E; cbn; auto. apply G. eapply men_chord; eauto.
  - intros d Hd. destruct d; cbn; auto. apply G. eapply men_nested; eauto.
  - intros x Hx. apply G. eapply men_macro; eauto.
  - right. exists c. split; auto. exists m, e. auto.
Qed.
Lemma lived_from c cs s k : lived c cs s k -> (In (k_cfg k) cs /\ In (k_orig k) cs) /\ from (presses cs s) (presses cs s) (releases cs s) k.
Proof.
  induction 1 as [clk|cs s k fuel evs k' t H [[I1 I2] IH] E|cs s k exp k' ok H [[I1 I2] IH] E|cs s k k' H [[I1 I2] IH] E].
  - split; [cbn; auto|]. apply from_new. apply config_from. now left.
  - assert (Ec := E). apply kbd_process_events_steps in Ec. apply steps_cfg in Ec as [-> ->]. split; [auto|].
    assert (HP : forall x, presses cs s x -> presses cs (map ev_code evs ++ s) x).
    { intros x [X|X]; [left; apply in_app_iff; auto|right; exact X]. }
    eapply from_events; [| | | | |exact E].
    + auto.
    + intros x X. now left.
    + apply presses_mods.
    + eapply from_mono; [| | |exact IH]; auto. intros x [X|X]; [left; auto|right; exact X].
    + apply Forall_forall. intros e He. right; right. left. apply in_app_iff. left. now apply in_map.
  - assert (HP : forall c' x, presses cs s x -> presses (c' :: cs) s x).
    { intros c' x [X|[X|[c0 [X Y]]]]; [left; auto|right; left; exact X|right; right; exists c0; cbn; auto]. }
    assert (IH' : from (presses (k_cfg k' :: cs) s) (presses (k_cfg k' :: cs) s) (releases (k_cfg k' :: cs) s) k).
    { eapply from_mono; [| | |exact IH]; auto. intros x [X|[c0 [X Y]]]; [left; auto|right; exists c0; cbn; auto]. }
    apply kbd_eval_shape in E as [c' ->]. cbn [k_cfg k_orig set_k_cfg] in *.
    split; [cbn; auto|]. apply from_set_cfg; auto. apply config_from. now left.
  - split; [destruct E; auto|]. eapply from_outside; eauto.
Qed.

Lemma c_from_mentions P R c x : c_from P P R c -> mentions c x -> P x.
Proof.
  intros (H1 & H2 & H3 & H4) [l code mods Hl E|l ch mods Hl Hc E|mods Hd|m e Hm He Hs].
  - specialize (H1 l code Hl). rewrite E in H1. exact H1.
  - specialize (H2 l ch Hl Hc). rewrite E in H2. exact H2.
  - exact (H3 _ Hd).
  - now apply (H4 m Hm e He).
Qed.
