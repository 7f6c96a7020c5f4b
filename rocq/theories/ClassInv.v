(* A property of actions that all bindings of a configuration share holds of
   every action the engine ever keeps; and the table of held keys never has two
   entries for one key. *)
From Verif Require Import Base Lib Keys Types MacroExec Kbd Config Engine ModsProofs ActProofs Wf OneProofs
  CacheProofs Inv.

(* the pending key and the actions of held keys are untouched *)
Definition cp (k k' : kbd) : Prop :=
  k_pend k' = k_pend k /\ map ce_d (k_cache k') = map ce_d (k_cache k).
Lemma cp_refl k : cp k k. Proof. split; reflexivity. Qed.
Lemma cp_trans a b c : cp a b -> cp b c -> cp a c.
Proof. unfold cp. intuition congruence. Qed.
Lemma map_upd {A B} (f : A -> B) : forall i x l, map f (upd i x l) = upd i (f x) (map f l).
Proof. induction i; intros x [|y l]; cbn [upd map]; auto. now rewrite IHi. Qed.
Lemma upd_nth {A} : forall i (l : list A) d, upd i (nth i l d) l = l.
Proof. induction i; intros [|y l] d; cbn [upd nth]; auto. now rewrite IHi. Qed.
Lemma set_ce_layer_d c x i : map ce_d (set_ce_layer c x i) = map ce_d c.
Proof.
  unfold set_ce_layer. destruct (cache_find _ _ _) as [j|]; auto. rewrite map_upd. cbn [ce_d].
  rewrite <- (map_nth ce_d). apply upd_nth.
Qed.
Ltac cpt := norm_states; split; kcbn; rewrite ?set_ce_layer_d; auto.

Definition pend_src (k : kbd) (code : N) (d a : desc) : Prop :=
  (exists i, desc_at k i = Ok a) \/ exists l b t, (d = DOverloadT l b t \/ d = DOverloadT2 l b t) /\ a = DLayer l.

Definition cfg_all (P : desc -> Prop) (c : config) : Prop :=
  (forall i x, P (ly_keymap (nth i (c_layers c) zero_layer) x))
  /\ (forall i ch, In ch (ly_chords (nth i (c_layers c) zero_layer)) -> P (ch_d ch))
  /\ (forall d, In d (c_descs c) -> P d).
Definition alld (P : desc -> Prop) (k : kbd) : Prop :=
  cfg_all P (k_cfg k)
  /\ (forall d, In d (map ce_d (k_cache k)) -> P d)
  /\ (forall ac, In ac (k_achords k) -> P (ch_d (ac_chord ac)))
  /\ P (p_a1 (k_pend k)) /\ P (p_a2 (k_pend k)).

Record closed (P : desc -> Prop) : Prop := {
  cl_none : P DNone;
  cl_self : forall c, P (DKey c 0);
  cl_t : forall l a t, P (DOverloadT l a t) -> P (DLayer l);
  cl_t2 : forall l a t, P (DOverloadT2 l a t) -> P (DLayer l);
  cl_swap : forall l, P (DSwap l) -> P (DLayer l);
  cl_swapm : forall l m, P (DSwapM l m) -> P (DLayer l) }.

Section Class.
Variable P : desc -> Prop.
Hypothesis HP : closed P.

Lemma alld_cp k k' : frame k k' -> cp k k' -> alld P k -> alld P k'.
Proof.
  intros [F1 [_ [_ [F4 _]]]] [C1 C2] [H1 [H2 [H3 H4]]]. unfold alld. rewrite F1, F4, C1, C2. auto.
Qed.
Lemma desc_at_P k i d : alld P k -> desc_at k i = Ok d -> P d.
Proof.
  intros [[_ [_ H]] _] Hd. apply desc_at_in in Hd as [->|Hd]; [apply HP|auto].
Qed.
Lemma alld_pend k p : alld P k -> P (p_a1 p) -> P (p_a2 p) -> alld P (set_k_pend p k).
Proof. intros [H1 [H2 [H3 _]]] A B. repeat split; auto; apply H1. Qed.
Lemma alld_cache k i e : alld P k -> P (ce_d e) -> alld P (set_k_cache (upd i e (k_cache k)) k).
Proof.
  intros [H1 [H2 H3]] A. split; auto. split; auto. cbn [k_cache set_k_cache].
  intros d Hd. rewrite map_upd in Hd. apply In_upd in Hd as [->|Hd]; auto.
Qed.

Lemma do_swap_alld k dl i k' : P (DLayer i) -> do_swap k dl i = Ok k' -> alld P k -> alld P k'.
Proof.
  intros HL H A. pose proof (do_swap_frame _ _ _ _ H) as F.
  unfold do_swap in H. bstep H u Eu. bstep H u2 Eu2.
  destruct (l_toggled (k_ls k dl)); [|destruct (negb _); [|destruct (swap_slot _ _ _ _)]].
  - bstep H k1 E1. bstep H k3 E3. apply Ok_inj in H. subst k'. apply (alld_cp k); auto. clear F. cpt.
  - bstep H k1 E1. bstep H k3 E3. apply Ok_inj in H. subst k'. apply (alld_cp k); auto. clear F. cpt.
  - bstep H k1 E1. bstep H k3 E3. apply Ok_inj in H. subst k'.
    match type of E1 with deactivate_layer ?x _ = _ => set (k0 := x) in * end.
    assert (A0 : alld P k0) by (now apply alld_cache).
    clearbody k0. apply (alld_cp k0); auto; clear A A0 F; [fr|cpt].
  - apply Ok_inj in H. subst. auto.
Qed.

Lemma pd_alld : forall fuel k code d dl pressed time k',
  process_descriptor fuel k code d dl pressed time = Ok k' -> P d -> alld P k -> alld P k'.
Proof.
  induction fuel as [|fuel IH]; intros k code d dl pressed time k' H Hd A; [discriminate|].
  pose proof (pd_frame _ _ _ _ _ _ _ _ H) as F0.
  cbn [process_descriptor] in H. bstep H k0 E0. bstep H k1 E1. apply Ok_inj in H. subst k'.
  assert (Hl : forall k1, alld P k1 -> alld P (if pressed then set_k_last_code code k1 else k1)).
  { intros k2 Ha. destruct pressed; auto. }
  assert (Ec : frame k k0 /\ cp k k0).
  { destruct pressed; [|apply Ok_inj in E0; subst; split; [apply frame_refl|apply cp_refl]].
    apply pre_macro_only in E0 as [l [s [o ->]]]. split; repeat split. }
  destruct Ec as [F C].
  assert (F1 : frame k0 (if pressed then set_k_last_code code k1 else k1)).
  { destruct F as [A1 [A2 [A3 [A4 [A5 A6]]]]]. unfold frame in *. rewrite A1, A2, A3, A4, A5, A6. exact F0. }
  apply (alld_cp k k0) in A; auto. clear E0 F0 F C k.
  assert (Q : cp k0 k1 -> alld P (if pressed then set_k_last_code code k1 else k1)).
  { intros Q. apply (alld_cp k0); auto. destruct pressed; exact Q. }
  assert (Qp : forall p, k1 = set_k_pend p k0 -> P (p_a1 p) -> P (p_a2 p) ->
               alld P (if pressed then set_k_last_code code k1 else k1)).
  { intros p -> B1 B2. apply Hl. now apply alld_pend. }
  destruct d; try (apply Q; apply Ok_inj in E1; subst; split; reflexivity).
  - apply Q. unfold pd_key in E1. bstep E1 k2 E2. apply Ok_inj in E1. subst k1.
    apply (cp_trans k0 k2); [|destruct (_ || _); split; reflexivity]. clear Hl F1 Q Qp A Hd.
    destruct pressed.
    + destruct (k_ks k0 code0); cpt.
    + apply Ok_inj in E2. subst. cpt.
  - apply Q. clear Hl F1 Q Qp A Hd. unfold pd_oneshot in E1. destruct pressed; [|destruct (k_latch k0)].
    + bstep E1 k2 E2. apply Ok_inj in E1. subst. cpt.
    + bstep E1 u Eu. destruct (_ =? 0)%Z; [apply Ok_inj in E1; subst|]; cpt.
    + bstep E1 k2 E2. apply Ok_inj in E1. subst. cpt.
  - apply Q. clear Hl F1 Q Qp A Hd. unfold pd_oneshot in E1. destruct pressed; [|destruct (k_latch k0)].
    + bstep E1 k2 E2. apply Ok_inj in E1. subst. cpt.
    + bstep E1 u Eu. destruct (_ =? 0)%Z; [apply Ok_inj in E1; subst|]; cpt.
    + bstep E1 k2 E2. apply Ok_inj in E1. subst. cpt.
  - apply Q. clear Hl F1 Q Qp A Hd. unfold pd_layer in E1. bstep E1 k2 E2. apply Ok_inj in E1. subst k1. destruct pressed; cpt.
  - unfold pd_swap in E1. destruct pressed.
    + bstep E1 k2 E2. apply Ok_inj in E1. subst. apply Hl. eapply do_swap_alld; eauto. eapply cl_swap; eauto.
    + apply Ok_inj in E1. subst. auto.
  - bstep E1 mm Em. unfold pd_swap in E1. destruct pressed.
    + bstep E1 k2 E2. apply Ok_inj in E1. subst. apply Hl.
      apply do_swap_alld in E2; auto; [|eapply cl_swapm; eauto].
      apply (alld_cp k2); auto; [fr|cpt].
    + apply Q. apply Ok_inj in E1. subst. clear. destruct mm as [|[[] dt] [|]]; cpt.
  - apply Q. clear Hl F1 Q Qp A Hd. unfold pd_layer in E1. bstep E1 k2 E2. apply Ok_inj in E1. subst k1. destruct pressed; cpt.
  - destruct pressed; [|apply Ok_inj in E1; subst; auto]. apply Q. clear Hl F1 Q Qp A Hd.
    unfold setlayout in E1. bstep E1 u Eu. bstep E1 k2 E2. apply Ok_inj in E1. subst k1.
    assert (G : forall l k, cp k (fold_left drop_layout l k)).
    { clear. induction l; cbn [fold_left]; intros; [apply cp_refl|].
      eapply cp_trans; [|apply IHl]. unfold drop_layout. destruct (is_layout _); split; reflexivity. }
    apply (cp_trans k0 k2); [clear G; cpt|]. apply (cp_trans _ _ _ (G (seq 1 (nlayers k2 - 1)) k2)).
    destruct (Nat.eqb l 0); split; reflexivity.
  - destruct pressed; [|apply Ok_inj in E1; subst; auto]. apply Q. clear Hl F1 Q Qp A Hd. cpt.
  - destruct pressed; [|apply Ok_inj in E1; subst; auto]. apply Q. clear Hl F1 Q Qp A Hd.
    bstep E1 mm Em. bstep E1 k2 E2. apply Ok_inj in E1. subst. cpt.
  - bstep E1 ac Ea. destruct pressed.
    + apply Q. clear Hl F1 Q Qp A Hd. bstep E1 k2 E2. apply Ok_inj in E1. subst. cpt.
    + bstep E1 k2 E2. assert (Hac : P ac) by (eapply desc_at_P; eauto).
      assert (A2 : alld P k2). { apply (alld_cp k0); auto; clear Q Qp Hl F1 A E1; [fr|cpt]. }
      set (k3 := update_mods false k2 None 0) in *.
      assert (A3 : alld P k3). { apply (alld_cp k2); auto; subst k3; clear Q Qp Hl F1 A E1; [fr|cpt]. }
      clear Q Qp. clearbody k3.
      destruct (_ && _) in E1; [|apply Ok_inj in E1; subst; auto].
      assert (G : forall k1, (k4 <- process_descriptor fuel k3 code ac dl true time ;;
                   process_descriptor fuel k4 code ac dl false time) = Ok k1 -> alld P k1).
      { clear E1. intros k5 E5. bstep E5 k4 E4. eapply IH; [exact E5|auto|]. eapply IH; eauto. }
      destruct ac; try (apply Hl, G; exact E1).
      bstep E1 mm Em. apply Ok_inj in E1. subst. apply (alld_cp k3); auto; clear G; [fr|cpt].
  - destruct pressed; [|apply Ok_inj in E1; subst; auto].
    bstep E1 ac Ea. unfold set_pending in E1. apply schedule_ok in E1. subst k1.
    eapply (alld_cp (set_k_pend (mkPend code dl (time + t) PkUninterruptible (p_queue (k_pend k0)) ac (DLayer l)) k0)).
    + repeat split.
    + split; reflexivity.
    + apply alld_pend; auto; cbn [p_a1 p_a2]; [eapply desc_at_P; eauto|eapply cl_t; eauto].
  - destruct pressed; [|apply Ok_inj in E1; subst; auto].
    bstep E1 ac Ea. unfold set_pending in E1. apply schedule_ok in E1. subst k1.
    eapply (alld_cp (set_k_pend (mkPend code dl (time + t) PkTap2 (p_queue (k_pend k0)) ac (DLayer l)) k0)).
    + repeat split.
    + split; reflexivity.
    + apply alld_pend; auto; cbn [p_a1 p_a2]; [eapply desc_at_P; eauto|eapply cl_t2; eauto].
  - destruct pressed; [|apply Ok_inj in E1; subst; auto].
    bstep E1 ac Ea. bstep E1 k2 E2. apply Ok_inj in E1. subst.
    assert (Hac : P ac) by (eapply desc_at_P; eauto).
    apply IH in E2; auto. apply Hl. unfold cache_replace_d. destruct (cache_find _ _ _); auto.
    now apply alld_cache.
  - unfold pd_toggle in E1. destruct pressed; [|apply Ok_inj in E1; subst; auto]. apply Q. clear Hl F1 Q Qp A Hd.
    bstep E1 u Eu. bstep E1 k2 E2. destruct (l_toggled _); cpt.
  - unfold pd_toggle in E1. destruct pressed; [|apply Ok_inj in E1; subst; auto]. apply Q. clear Hl F1 Q Qp A Hd.
    bstep E1 u Eu. bstep E1 k2 E2. destruct (l_toggled _); cpt.
  - unfold pd_macro in E1. destruct pressed; [|apply Ok_inj in E1; subst; auto]. apply Q. clear Hl F1 Q Qp A Hd.
    bstep E1 mm Em. bstep E1 k2 E2. cpt.
  - unfold pd_macro in E1. destruct pressed; [|apply Ok_inj in E1; subst; auto]. apply Q. clear Hl F1 Q Qp A Hd.
    bstep E1 mm Em. bstep E1 k2 E2. cpt.
  - destruct pressed; [|apply Ok_inj in E1; subst; auto]. apply Q. clear Hl F1 Q Qp A Hd.
    bstep E1 cm Em. bstep E1 k2 E2. apply Ok_inj in E1. subst. cpt.
  - destruct pressed; [|apply Ok_inj in E1; subst; auto].
    bstep E1 ac Ea. bstep E1 ac2 Ea2. unfold set_pending in E1. apply schedule_ok in E1. subst k1.
    eapply (alld_cp (set_k_pend (mkPend code dl (time + t) PkInterrupt1 (p_queue (k_pend k0)) ac ac2) k0)).
    + repeat split.
    + split; reflexivity.
    + apply alld_pend; auto; cbn [p_a1 p_a2]; eapply desc_at_P; eauto.
Qed.
End Class.

(* ---- cache_set ------------------------------------------------------------------------ *)
Lemma cache_slot_spec code : forall c i s j, cache_slot c code i s = Some j ->
  (i <= j < i + length c /\ ce_code (nth (j - i) c zero_ce) = code)
  \/ ((forall e, In e c -> ce_code e <> code)
      /\ (s = Some j \/ (i <= j < i + length c /\ ce_code (nth (j - i) c zero_ce) = 0%N))).
Proof.
  induction c as [|e r IH]; cbn [cache_slot]; intros i s j E.
  - right. split; [intros e []|now left].
  - destruct (N.eqb_spec (ce_code e) code) as [Ec|Ec].
    + injection E as <-. left. rewrite Nat.sub_diag. cbn [length nth]. split; [lia|auto].
    + apply IH in E as [[E1 E2]|[E1 E2]].
      * left. cbn [length]. split; [lia|]. replace (j - i) with (S (j - S i)) by lia. exact E2.
      * right. split; [intros e' [<-|He']; auto|]. destruct E2 as [E2|[E2 E3]].
        -- destruct (N.eqb_spec (ce_code e) 0); [|now left].
           injection E2 as <-. right. rewrite Nat.sub_diag. cbn [length nth]. split; [lia|auto].
        -- right. cbn [length]. split; [lia|]. replace (j - i) with (S (j - S i)) by lia. exact E3.
Qed.
Lemma cache_set_spec k code ent k' : cache_set k code ent = Some k' ->
  exists i e, k' = set_k_cache (upd i e (k_cache k)) k /\ i < length (k_cache k)
    /\ (ce_code (nth i (k_cache k) zero_ce) = code
        \/ (ce_code (nth i (k_cache k) zero_ce) = 0%N /\ forall x, In x (k_cache k) -> ce_code x <> code))
    /\ e = match ent with
           | None => mkCe 0 (ce_d (nth i (k_cache k) zero_ce)) (ce_dl (nth i (k_cache k) zero_ce))
                          (ce_layer (nth i (k_cache k) zero_ce))
           | Some e => mkCe code (ce_d e) (ce_dl e) (ce_layer e)
           end.
Proof.
  unfold cache_set. intros H. destruct (cache_slot _ _ _ _) as [i|] eqn:E; [|discriminate H].
  injection H as <-. apply cache_slot_spec in E. rewrite Nat.sub_0_r in E.
  eexists i, _. split; [reflexivity|].
  destruct E as [[E1 E2]|[E1 [E2|[E2 E3]]]]; [|discriminate E2|]; (split; [lia|]); split; auto.
Qed.

Lemma uniq_upd c i e : uniq c -> i < length c ->
  ce_code e = 0%N \/ ce_code (nth i c zero_ce) = ce_code e \/ (forall x, In x c -> ce_code x <> ce_code e) ->
  uniq (upd i e c).
Proof.
  intros U Hi He a b Ha Hb. rewrite upd_length in *.
  assert (W : forall z, z < length c -> z <> i -> ce_code e <> 0%N ->
              ce_code (nth z c zero_ce) = ce_code e -> False).
  { intros z Hz Hne H0 Heq. destruct He as [He|[He|He]]; [auto| |].
    - apply Hne. apply U; auto; congruence.
    - apply (He (nth z c zero_ce)); auto. now apply nth_In. }
  destruct (Nat.eq_dec a i) as [->|Ea], (Nat.eq_dec b i) as [->|Eb]; auto.
  - rewrite nth_upd_same by auto. rewrite nth_upd_other by auto. intros H1 H2.
    exfalso. apply (W b); auto.
  - rewrite nth_upd_other by auto. rewrite nth_upd_same by auto. intros H1 H2.
    exfalso. apply (W a); auto. congruence.
  - rewrite !nth_upd_other by auto. apply U; auto.
Qed.
Lemma cache_set_uniq k code ent k' : cache_set k code ent = Some k' -> uniq (k_cache k) -> uniq (k_cache k').
Proof.
  intros H U. apply cache_set_spec in H as [i [e [-> [Hi [Hc ->]]]]]. cbn [k_cache set_k_cache].
  apply uniq_upd; auto. destruct ent; [right|left; reflexivity]. cbn [ce_code].
  destruct Hc as [Hc|[_ Hc]]; auto.
Qed.
Lemma uniq_zero n : uniq (repeat zero_ce n).
Proof.
  intros i j _ _ _ H. exfalso. apply H.
  destruct (Nat.lt_ge_cases i n) as [L|L]; [now rewrite nth_repeat|].
  rewrite nth_overflow; [reflexivity|]. now rewrite repeat_length.
Qed.

(* actions that only look at the key state, layers or timers of the keyboard *)
Lemma lookup_alld P k code d dl : closed P -> alld P k -> lookup_descriptor k code = (d, dl) -> P d.
Proof.
  intros HP [[A1 [A2 A3]] [_ [A4 _]]] H. unfold lookup_descriptor in H. destruct (is_chord_code code).
  - injection H as <- _.
    destruct (Nat.lt_ge_cases (N.to_nat (code - K_CHORD_1)) (length (k_achords k))) as [L|L].
    + apply A4. now apply nth_In.
    + rewrite nth_overflow by auto. apply HP.
  - assert (G1 : forall l acc, P (snd (fst acc)) -> P (snd (fst (fold_left (lookup_step k code) l acc)))).
    { induction l as [|i l IH]; cbn [fold_left]; auto. intros acc Ha. apply IH.
      unfold lookup_step. destruct acc as [[mx d0] l0]. destruct (is_active k i); [|exact Ha].
      cbv zeta. destruct (_ && _); [|exact Ha]. cbn [fst snd]. apply A1. }
    assert (G2 : forall l acc, P (snd (fst acc)) -> P (snd (fst (fold_left (composite_step k code) l acc)))).
    { induction l as [|i l IH]; cbn [fold_left]; auto. intros acc Ha. apply IH.
      unfold composite_step. destruct acc as [[mx d0] l0]. cbv zeta.
      destruct (is_composite _); [|exact Ha]. destruct (_ && _); [|exact Ha]. cbn [fst snd]. apply A1. }
    specialize (G1 (seq 0 (nlayers k)) (0%Z, DNone, 0) (cl_none _ HP)).
    destruct (fold_left (lookup_step k code) _ _) as [[mx d1] dl1]. cbn [fst snd] in G1.
    specialize (G2 (seq 0 (nlayers k)) (0, d1, dl1) G1).
    destruct (fold_left (composite_step k code) _ _) as [[sz d2] dl2]. cbn [fst snd] in G2.
    destruct (has_op d2); injection H as <- _; auto. apply HP.
Qed.

Lemma expire_cp k time k' : expire_oneshot k time = Ok k' -> cp k k' /\ k_cache k' = k_cache k.
Proof.
  unfold expire_oneshot. intros H. destruct (_ && _); [|apply Ok_inj in H; subst; split; [apply cp_refl|reflexivity]].
  bstep H k1 E1. apply Ok_inj in H. subst. norm_states. repeat split.
Qed.
Lemma run_macro_cp k code time k' : run_active_macro k code time = Ok k' -> cp k k' /\ k_cache k' = k_cache k.
Proof.
  unfold run_active_macro. intros H.
  destruct (k_amacro k); [|apply Ok_inj in H; subst; split; [apply cp_refl|reflexivity]].
  destruct (negb _); [apply Ok_inj in H; subst; norm_states; repeat split|].
  destruct (_ <=? _)%Z; [|apply Ok_inj in H; subst; split; [apply cp_refl|reflexivity]].
  bstep H mm Em. norm_states. repeat split.
Qed.

Section Events.
Variable P : desc -> Prop.
Hypothesis HP : closed P.

Lemma cache_set_alld k code ent k' : cache_set k code ent = Some k' ->
  (forall e, ent = Some e -> P (ce_d e)) -> alld P k -> alld P k'.
Proof.
  intros H He A. apply cache_set_spec in H as [i [e [-> [Hi [_ ->]]]]]. apply alld_cache; auto.
  destruct ent as [e|]; cbn [ce_d]; auto. destruct A as [_ [A _]]. apply A. apply in_map. now apply nth_In.
Qed.
Lemma handle_key_alld k code pressed time k' : handle_key k code pressed time = Ok k' ->
  alld P k -> alld P k'.
Proof.
  intros H A. unfold handle_key in H. destruct (code =? 0)%N; [apply Ok_inj in H; now subst|].
  destruct pressed.
  - destruct (cache_get k code); [apply Ok_inj in H; now subst|].
    destruct (lookup_descriptor k code) as [d dl] eqn:El.
    destruct (cache_set _ _ _) as [k1|] eqn:E; [|apply Ok_inj in H; now subst].
    apply (lookup_alld P) in El; auto.
    apply (pd_alld P HP) in H; auto. eapply cache_set_alld; eauto. intros e [= <-]. exact El.
  - destruct (cache_get k code) as [i|] eqn:Eg; [|apply Ok_inj in H; now subst].
    destruct (cache_set _ _ _) as [k1|] eqn:E; [|apply Ok_inj in H; now subst].
    apply (pd_alld P HP) in H; auto.
    + destruct A as [_ [A _]]. apply A. apply in_map. apply nth_In.
      apply cache_find_at in Eg as [_ [Eg _]]. lia.
    + eapply cache_set_alld; eauto. intros e [=].
Qed.
Lemma rest_alld k code pressed time k' : rest_step k code pressed time = Ok k' -> alld P k -> alld P k'.
Proof.
  unfold rest_step. intros H A. bstep H k3 E3. bstep H k4 E4.
  apply (alld_cp P k k3) in A; [|eapply expire_frame; eauto|apply (expire_cp _ _ _ E3)].
  apply (alld_cp P k3 k4) in A; [|eapply run_macro_frame; eauto|apply (run_macro_cp _ _ _ _ E4)].
  eapply handle_key_alld; eauto.
Qed.
Lemma decide_alld k p a time k' : decide k p a time = Ok k' -> P a -> P (p_a1 p) -> P (p_a2 p) ->
  alld P k -> alld P k'.
Proof.
  unfold decide. intros H Ha H1 H2 A. apply (pd_alld P HP) in H; auto.
  match type of H with process_descriptor _ _ _ _ _ _ _ = _ => idtac | _ => idtac end.
  destruct (cache_set _ _ _) as [k2|] eqn:E.
  - eapply cache_set_alld; [exact E| |]; [intros e [= <-]; exact Ha|]. now apply alld_pend.
  - now apply alld_pend.
Qed.
Lemma chord_alld k k' : chord_changed k k' -> alld P k -> alld P k'.
Proof.
  intros [q [acs [ts [-> [_ H]]]]] [A1 [A2 [A3 [A4 A5]]]].
  unfold alld. cbn [k_cfg k_cache k_achords k_pend set_k_chord set_k_achords set_k_timeouts].
  repeat split; auto; try apply A1.
  intros ac Hac. apply H in Hac as [->|[[ac0 [B1 ->]]|[li [ch [B1 ->]]]]]; auto; [apply HP|].
  destruct A1 as [_ [A1 _]]. eapply A1. exact B1.
Qed.
End Events.

Lemma pd_uniq fuel k code d dl pressed time k' :
  process_descriptor fuel k code d dl pressed time = Ok k' -> uniq (k_cache k) -> uniq (k_cache k').
Proof.
  intros H U. apply (pd_evols True) in H as [H _]; auto. eapply evols_uniq; eauto.
Qed.
Lemma handle_key_uniq k code pressed time k' : handle_key k code pressed time = Ok k' ->
  uniq (k_cache k) -> uniq (k_cache k').
Proof.
  intros H A. unfold handle_key in H. destruct (code =? 0)%N; [apply Ok_inj in H; now subst|].
  destruct pressed.
  - destruct (cache_get k code); [apply Ok_inj in H; now subst|].
    destruct (lookup_descriptor k code) as [d dl] eqn:El.
    destruct (cache_set _ _ _) as [k1|] eqn:E; [|apply Ok_inj in H; now subst].
    apply pd_uniq in H; auto. eapply cache_set_uniq; eauto.
  - destruct (cache_get k code) as [i|] eqn:Eg; [|apply Ok_inj in H; now subst].
    destruct (cache_set _ _ _) as [k1|] eqn:E; [|apply Ok_inj in H; now subst].
    apply pd_uniq in H; auto. eapply cache_set_uniq; eauto.
Qed.
Lemma rest_uniq k code pressed time k' : rest_step k code pressed time = Ok k' ->
  uniq (k_cache k) -> uniq (k_cache k').
Proof.
  unfold rest_step. intros H A. bstep H k3 E3. bstep H k4 E4.
  apply expire_cp in E3 as [_ E3]. apply run_macro_cp in E4 as [_ E4].
  eapply handle_key_uniq; [exact H|]. now rewrite E4, E3.
Qed.
Lemma decide_uniq k p a time k' : decide k p a time = Ok k' -> uniq (k_cache k) -> uniq (k_cache k').
Proof.
  unfold decide. intros H A. apply pd_uniq in H; auto.
  destruct (cache_set _ _ _) as [k2|] eqn:E; [|exact A].
  eapply cache_set_uniq; eauto.
Qed.
Lemma chord_uniq k k' : chord_changed k k' -> uniq (k_cache k) -> uniq (k_cache k').
Proof. intros [q [acs [ts [-> _]]]]. auto. Qed.

(* both through batches of events *)
Lemma events_uniq fuel k evs k' t : kbd_process_events fuel k evs = Ok (k', t) ->
  uniq (k_cache k) -> uniq (k_cache k').
Proof.
  intros H U.
  assert (G : IQ (fun k => uniq (k_cache k)) (fun _ => True) k').
  { eapply simple_events; [..|exact H]; auto.
    - intros. eapply chord_uniq; eauto.
    - intros. eapply decide_uniq; eauto.
    - intros. eapply rest_uniq; eauto.
    - split; auto. split; apply Forall_forall; auto.
    - apply Forall_forall; auto. }
  apply G.
Qed.
Lemma events_alld P fuel k evs k' t : closed P -> kbd_process_events fuel k evs = Ok (k', t) ->
  alld P k -> alld P k'.
Proof.
  intros HP H A.
  assert (G : IQ (alld P) (fun _ => True) k').
  { eapply simple_events; [..|exact H]; auto.
    - intros. eapply chord_alld; eauto.
    - intros k0 q a time k1 B Hp Ha Ho Hd. pose proof B as [_ [_ [_ [B4 B5]]]].
      eapply decide_alld; eauto. destruct Ha as [Ha|Ha]; rewrite Ha; auto.
    - intros. eapply rest_alld; eauto.
    - split; auto. split; apply Forall_forall; auto.
    - apply Forall_forall; auto. }
  apply G.
Qed.
