(* Points in time kept in the state stay within a class of times closed under
   adding the time-outs of the configuration. *)
From Verif Require Import Base Lib Keys Types MacroExec Kbd Engine ModsProofs ActProofs OneProofs CacheProofs Inv ClassInv
  TermProofs.

(* actions with time-outs that are not negative; overloadi compares with a clock
   that starts at 0 *)
Definition calm (d : desc) : Prop :=
  match d with
  | DOverloadI _ _ _ => False
  | DOverloadT _ _ t | DOverloadT2 _ _ t | DTimeout _ t _ => (0 <= t)%Z
  | DMacro2 t r _ => (0 <= t)%Z /\ (0 <= r)%Z
  | _ => True
  end.
Lemma calm_closed : closed calm.
Proof. split; intros; exact Logic.I. Qed.
Definition calm_set (c : config) : Prop :=
  (0 <= c_macro_timeout c)%Z /\ (0 <= c_macro_repeat c)%Z /\ (0 <= c_oneshot_timeout c)%Z
  /\ (0 <= c_chord_interkey c)%Z /\ (0 <= c_chord_hold c)%Z.
Definition calm_cfg (c : config) : Prop := cfg_all calm c /\ calm_set c.

Section Times.
Variable pos : Z -> Prop.
Hypothesis pos_add : forall t x, pos t -> (0 <= x)%Z -> pos (t + x).

Definition tl (k : kbd) : Prop :=
  Forall pos (k_timeouts k)
  /\ (p_code (k_pend k) = 0%N \/ pos (p_expire (k_pend k)))
  /\ (k_amacro k = None \/ (pos (k_macro_to k) /\ (0 <= k_repeat k)%Z))
  /\ (k_oneshot_to k = 0%Z \/ pos (k_oneshot_to k)).
Definition over (k : kbd) : Prop := exists l a, In (DOverload l a) (map ce_d (k_cache k)).
Definition stp (k k' : kbd) : Prop :=
  (tl k -> tl k') /\ (k_ovl_start k' = k_ovl_start k \/ pos (k_ovl_start k')) /\ (over k' -> over k).
Lemma stp_refl k : stp k k. Proof. split; [auto|split; auto]. Qed.
Lemma stp_trans a b c : stp a b -> stp b c -> stp a c.
Proof.
  intros [A1 [A2 A3]] [B1 [B2 B3]]. split; [auto|split; [|auto]].
  destruct B2 as [->|B2]; auto.
Qed.
Lemma stp_same k k' : k_timeouts k' = k_timeouts k -> k_pend k' = k_pend k -> k_oneshot_to k' = k_oneshot_to k ->
  k_amacro k' = k_amacro k -> k_macro_to k' = k_macro_to k -> k_repeat k' = k_repeat k ->
  k_ovl_start k' = k_ovl_start k -> k_cache k' = k_cache k -> stp k k'.
Proof. intros E1 E2 E3 E4 E5 E6 E7 E8. unfold stp, tl, over. rewrite E1, E2, E3, E4, E5, E6, E7, E8. auto. Qed.
Ltac sv := norm_states; split; [intros [A1 [A2 [A3 A4]]]; unfold tl; kcbn; cbn [p_expire p_code] in *;
    split; [try assumption; try (apply Forall_app; split; [assumption|constructor; [auto|constructor]])|split; [auto|split; auto]]
  |split; [kcbn; auto|unfold over; kcbn; rewrite ?set_ce_layer_d; auto]].

Lemma setlayout_stp k i k' : setlayout k i = Ok k' -> stp k k'.
Proof.
  unfold setlayout. intros H. bstep H u Eu. bstep H k1 E1. apply Ok_inj in H. subst k'.
  assert (G : forall l k, stp k (fold_left drop_layout l k)).
  { clear. induction l; cbn [fold_left]; intros; [apply stp_refl|].
    eapply stp_trans; [|apply IHl]. unfold drop_layout. destruct (is_layout _); apply stp_same; reflexivity. }
  eapply stp_trans; [|eapply (stp_trans _ _ _ (G (seq 1 (nlayers k1 - 1)) k1))].
  - sv.
  - destruct (Nat.eqb i 0); apply stp_same; reflexivity.
Qed.
Lemma do_swap_stp k dl i k' : do_swap k dl i = Ok k' -> stp k k'.
Proof.
  intros H. unfold do_swap in H. bstep H u Eu. bstep H u2 Eu2.
  destruct (l_toggled (k_ls k dl)); [|destruct (negb _); [|destruct (swap_slot _ _ _ _)]].
  - bstep H k1 E1. bstep H k3 E3. apply Ok_inj in H. subst k'. sv.
  - bstep H k1 E1. bstep H k3 E3. apply Ok_inj in H. subst k'. sv.
  - bstep H k1 E1. bstep H k3 E3. apply Ok_inj in H. subst k'. sv.
    intros [l [a HI]]. rewrite map_upd in HI. apply In_upd in HI as [HI|HI]; [discriminate|]. exists l, a. exact HI.
  - apply Ok_inj in H. subst. apply stp_refl.
Qed.
Lemma pd_stp : forall fuel k code d dl pressed time k', calm d -> calm_cfg (k_cfg k) -> pos time ->
  process_descriptor fuel k code d dl pressed time = Ok k' -> stp k k'.
Proof.
  induction fuel as [|fuel IH]; intros k code d dl pressed time k' Cd Cc Ht H; [discriminate|].
  cbn [process_descriptor] in H. bstep H k0 E0. bstep H k1 E1. apply Ok_inj in H. subst k'.
  apply (stp_trans k k0).
  { destruct pressed; [|apply Ok_inj in E0; subst; apply stp_refl].
    apply pre_macro_only in E0 as [l [s [o ->]]]. apply stp_same; reflexivity. }
  apply (stp_trans k0 k1).
  2: { destruct pressed; apply stp_same; reflexivity. }
  assert (Ec : k_cfg k0 = k_cfg k).
  { destruct pressed; [|apply Ok_inj in E0; subst; reflexivity].
    apply pre_macro_only in E0 as [l [s [o ->]]]. reflexivity. }
  rewrite <- Ec in Cc. clear E0 Ec k. destruct Cc as [Ca Cs]. pose proof Cs as [G1 [G2 [G3 _]]]. destruct d; try (apply Ok_inj in E1; subst; apply stp_same; reflexivity).
  - unfold pd_key in E1. bstep E1 k2 E2. apply Ok_inj in E1. subst k1.
    apply (stp_trans k0 k2); [|destruct (_ || _); apply stp_same; reflexivity].
    destruct pressed.
    + destruct (k_ks k0 code0); sv.
    + apply Ok_inj in E2. subst. sv.
  - unfold pd_oneshot in E1. destruct pressed; [|destruct (k_latch k0)].
    + bstep E1 k2 E2. apply Ok_inj in E1. subst. sv.
    + bstep E1 u Eu. destruct (_ =? 0)%Z; [apply Ok_inj in E1; subst|]; sv.
    + bstep E1 k2 E2. apply Ok_inj in E1. subst. sv.
  - unfold pd_oneshot in E1. destruct pressed; [|destruct (k_latch k0)].
    + bstep E1 k2 E2. apply Ok_inj in E1. subst. sv.
    + bstep E1 u Eu. destruct (_ =? 0)%Z; [apply Ok_inj in E1; subst|]; sv.
    + bstep E1 k2 E2. apply Ok_inj in E1. subst. sv.
  - unfold pd_layer in E1. bstep E1 k2 E2. apply Ok_inj in E1. subst k1. destruct pressed; sv.
  - unfold pd_swap in E1. destruct pressed.
    + bstep E1 k2 E2. apply Ok_inj in E1. subst. now apply do_swap_stp in E2.
    + apply Ok_inj in E1. subst. sv.
  - bstep E1 mm Em. unfold pd_swap in E1. destruct pressed.
    + bstep E1 k2 E2. apply Ok_inj in E1. subst. apply do_swap_stp in E2.
      eapply stp_trans; [exact E2|]. sv.
    + apply Ok_inj in E1. subst. destruct mm as [|[[] dt] [|]]; sv.
  - unfold pd_layer in E1. bstep E1 k2 E2. apply Ok_inj in E1. subst k1. destruct pressed; sv.
  - destruct pressed; [now apply setlayout_stp in E1|apply Ok_inj in E1; subst; apply stp_refl].
  - destruct pressed; [|apply Ok_inj in E1; subst; apply stp_refl]. sv.
  - destruct pressed; [|apply Ok_inj in E1; subst; apply stp_refl].
    bstep E1 mm Em. bstep E1 k2 E2. apply Ok_inj in E1. subst. sv.
  - bstep E1 ac Ea. destruct pressed.
    + bstep E1 k2 E2. apply Ok_inj in E1. subst. sv.
    + bstep E1 k2 E2. apply (stp_trans k0 k2); [clear E1; sv|].
      apply (stp_trans k2 (update_mods false k2 None 0)); [clear E1; sv|].
      assert (Hc : k_cfg (update_mods false k2 None 0) = k_cfg k0) by (clear E1; norm_states; reflexivity).
      set (k3 := update_mods false k2 None 0) in *. clearbody k3.
      assert (Pa : calm ac) by (apply desc_at_in in Ea as [->|Ea]; [exact Logic.I|now apply Ca]).
      destruct (_ && _) in E1; [|apply Ok_inj in E1; subst; apply stp_refl].
      assert (G : forall k1, (k4 <- process_descriptor fuel k3 code ac dl true time ;;
                   process_descriptor fuel k4 code ac dl false time) = Ok k1 -> stp k3 k1).
      { clear E1. intros k5 E5. bstep E5 k4 E4.
        assert (Hc4 : k_cfg k4 = k_cfg k3) by (apply pd_frame in E4; apply E4).
        eapply stp_trans; eapply IH; try eassumption; [|rewrite Hc4]; rewrite Hc; split; assumption. }
      destruct ac; try (apply G; exact E1).
      bstep E1 mm Em. apply Ok_inj in E1. subst. sv.
  - destruct pressed; [|apply Ok_inj in E1; subst; apply stp_refl].
    bstep E1 ac Ea. unfold set_pending in E1. sv.
  - destruct pressed; [|apply Ok_inj in E1; subst; apply stp_refl].
    bstep E1 ac Ea. unfold set_pending in E1. sv.
  - destruct Cd.
  - unfold pd_toggle in E1. destruct pressed; [|apply Ok_inj in E1; subst; apply stp_refl].
    bstep E1 u Eu. bstep E1 k2 E2. destruct (l_toggled _); sv.
  - unfold pd_toggle in E1. destruct pressed; [|apply Ok_inj in E1; subst; apply stp_refl].
    bstep E1 u Eu. bstep E1 k2 E2. destruct (l_toggled _); sv.
  - unfold pd_macro in E1. destruct pressed; [|apply Ok_inj in E1; subst; apply stp_refl].
    bstep E1 mm Em. bstep E1 k2 E2. sv.
  - unfold pd_macro in E1. destruct pressed; [|apply Ok_inj in E1; subst; apply stp_refl].
    destruct Cd as [Cd1 Cd2]. bstep E1 mm Em. bstep E1 k2 E2. sv.
  - destruct pressed; [|apply Ok_inj in E1; subst; apply stp_refl].
    bstep E1 cm Em. bstep E1 k2 E2. apply Ok_inj in E1. subst. sv.
  - destruct pressed; [|apply Ok_inj in E1; subst; apply stp_refl].
    bstep E1 ac Ea. bstep E1 ac2 Ea2. unfold set_pending in E1. sv.
Qed.


(* ---- all points in time of the state ---------------------------------------------- *)
Definition evpos (e : kev) : Prop := pos (ev_time e).
Definition base (k : kbd) : Prop :=
  tl k /\ Forall evpos (p_queue (k_pend k)) /\ Forall evpos (h_queue (k_chord k))
  /\ (h_state (k_chord k) = CsInactive \/ pos (h_last (k_chord k)))
  /\ alld calm k /\ calm_set (k_cfg k).
Definition ovl (k : kbd) : Prop := over k -> pos (k_ovl_start k).
Definition livet (k : kbd) : Prop := base k /\ ovl k.

Lemma base_cfg k : base k -> calm_cfg (k_cfg k).
Proof. intros H. split; apply H. Qed.
Lemma pd_base fuel k code d dl pressed time k' : process_descriptor fuel k code d dl pressed time = Ok k' ->
  calm d -> pos time -> base k -> base k'.
Proof.
  intros H Hd Ht B. pose proof (pd_stp _ _ _ _ _ _ _ _ Hd (base_cfg _ B) Ht H) as [S _].
  pose proof (pd_frame _ _ _ _ _ _ _ _ H) as [F1 [_ [F3 [_ [F5 _]]]]].
  destruct B as [B1 [B2 [B3 [B4 [B5 B6]]]]].
  pose proof (pd_alld calm calm_closed _ _ _ _ _ _ _ _ H Hd B5) as A.
  unfold base. rewrite F1, F3, F5. auto 8.
Qed.
Lemma pd_ovl fuel k code d dl pressed time k' : process_descriptor fuel k code d dl pressed time = Ok k' ->
  calm d -> pos time -> base k -> ovl k -> ovl k'.
Proof.
  intros H Hd Ht B O Ho. pose proof (pd_stp _ _ _ _ _ _ _ _ Hd (base_cfg _ B) Ht H) as [_ [S1 S2]].
  destruct S1 as [->|S1]; auto.
Qed.

Lemma expire_livet k time k' : expire_oneshot k time = Ok k' -> livet k -> livet k'.
Proof.
  intros H [B O]. pose proof (expire_frame _ _ _ H) as F. pose proof (expire_cp _ _ _ H) as [C _].
  assert (S : stp k k').
  { clear F C. unfold expire_oneshot in H. destruct (_ && _); [|apply Ok_inj in H; subst; apply stp_refl].
    bstep H k1 E1. apply Ok_inj in H. subst. sv. }
  destruct B as [B1 [B2 [B3 [B4 [B5 B6]]]]]. pose proof (alld_cp calm _ _ F C B5) as A.
  destruct F as [F1 [_ [F3 [_ [F5 _]]]]]. destruct S as [S1 [S2 S3]]. split.
  - unfold base. rewrite F1, F3, F5. auto 8.
  - intros Ho. destruct S2 as [->|S2]; auto.
Qed.
Lemma run_macro_livet k code time k' : run_active_macro k code time = Ok k' -> pos time -> livet k -> livet k'.
Proof.
  intros H Ht [B O]. pose proof (run_macro_frame _ _ _ _ H) as F. pose proof (run_macro_cp _ _ _ _ H) as [C _].
  assert (S : stp k k').
  { destruct B as [[_ [_ [B _]]] _]. clear F C. unfold run_active_macro in H.
    destruct (k_amacro k) eqn:Em; [|apply Ok_inj in H; subst; apply stp_refl].
    destruct (negb _); [apply Ok_inj in H; subst; sv|].
    destruct (_ <=? _)%Z; [|apply Ok_inj in H; subst; apply stp_refl].
    destruct B as [B|[B1 B2]]; [discriminate|]. bstep H mm Emm.
    apply schedule_ok in H. subst k'. cbv zeta.
    destruct (execute_macro_only k (k_amacro_layer k) mm) as [? [? [? X]]]. rewrite X. kcbn. sv. }
  destruct B as [B1 [B2 [B3 [B4 [B5 B6]]]]]. pose proof (alld_cp calm _ _ F C B5) as A.
  destruct F as [F1 [_ [F3 [_ [F5 _]]]]]. destruct S as [S1 [S2 S3]]. split.
  - unfold base. rewrite F1, F3, F5. auto 8.
  - intros Ho. destruct S2 as [->|S2]; auto.
Qed.

Lemma cache_set_base k code ent k' : cache_set k code ent = Some k' ->
  (forall e, ent = Some e -> calm (ce_d e)) -> base k -> base k'.
Proof.
  intros H He [B1 [B2 [B3 [B4 [B5 B6]]]]]. pose proof (cache_set_alld calm _ _ _ _ H He B5) as A.
  apply cache_set_spec in H as [i [e [-> _]]]. unfold base. kcbn. split; [exact B1|auto 8].
Qed.
Lemma cache_set_ovl k code ent k' : cache_set k code ent = Some k' ->
  (forall e l a, ent = Some e -> ce_d e <> DOverload l a) -> ovl k -> ovl k'.
Proof.
  intros H He O. apply cache_set_spec in H as [i [e [-> [Hi [_ ->]]]]]. intros [l [a Ho]].
  apply O. kcbn. exists l, a. cbn [k_cache set_k_cache] in Ho. rewrite map_upd in Ho. apply In_upd in Ho as [Ho|Ho]; auto.
  destruct ent as [e|]; cbn [ce_d] in Ho; [now destruct (He e l a eq_refl)|]. rewrite Ho. apply in_map. now apply nth_In.
Qed.
Definition is_over (d : desc) : bool := match d with DOverload _ _ => true | _ => false end.
Lemma overload_start fuel k code l a dl time k' :
  process_descriptor fuel k code (DOverload l a) dl true time = Ok k' -> k_ovl_start k' = time.
Proof.
  destruct fuel; [discriminate|]. cbn [process_descriptor]. intros H. bstep H k0 E0. bstep H k1 E1. apply Ok_inj in H. subst k'.
  bstep E1 ac Ea. bstep E1 k2 E2. apply Ok_inj in E1. subst k1. norm_states. reflexivity.
Qed.
(* the press of an action that has just been remembered *)
Lemma press_livet k code ent k1 d dl time k' : cache_set k code (Some ent) = Some k1 -> ce_d ent = d ->
  do_desc k1 code d dl true time = Ok k' -> calm d -> pos time -> livet k -> livet k'.
Proof.
  intros H He Hd C Ht [B O].
  assert (B1 : base k1) by (eapply cache_set_base; eauto; intros e [= <-]; now rewrite He).
  unfold do_desc in Hd. split; [eapply pd_base; eauto|].
  destruct (is_over d) eqn:Eo.
  - destruct d; try discriminate. apply overload_start in Hd. intros _. now rewrite Hd.
  - eapply pd_ovl; eauto. eapply cache_set_ovl; eauto. intros e l a [= <-] E2. rewrite He in E2. rewrite E2 in Eo. discriminate Eo.
Qed.
Lemma handle_key_livet k code pressed time k' : handle_key k code pressed time = Ok k' -> pos time -> livet k -> livet k'.
Proof.
  intros H Ht L. unfold handle_key in H. destruct (code =? 0)%N; [apply Ok_inj in H; now subst|].
  pose proof L as [B O]. pose proof B as [_ [_ [_ [_ [B5 _]]]]].
  destruct pressed.
  - destruct (cache_get k code); [apply Ok_inj in H; now subst|].
    destruct (lookup_descriptor k code) as [d dl] eqn:El.
    destruct (cache_set _ _ _) as [k1|] eqn:E; [|apply Ok_inj in H; now subst].
    apply (lookup_alld calm) in El; auto using calm_closed. eapply press_livet; eauto.
  - destruct (cache_get k code) as [i|] eqn:Eg; [|apply Ok_inj in H; now subst].
    destruct (cache_set _ _ _) as [k1|] eqn:E; [|apply Ok_inj in H; now subst].
    assert (C : calm (ce_d (cache_nth k i))).
    { destruct B5 as [_ [B5 _]]. apply B5. apply in_map. apply nth_In.
      apply cache_find_at in Eg as [_ [Eg _]]. lia. }
    assert (B1 : base k1) by (eapply cache_set_base; eauto; intros e [=]).
    assert (O1 : ovl k1) by (eapply cache_set_ovl; eauto; intros e l a [=]).
    unfold do_desc in H. split; [eapply pd_base|eapply pd_ovl]; eauto.
Qed.
Lemma rest_livet k code pressed time k' : rest_step k code pressed time = Ok k' -> pos time -> livet k -> livet k'.
Proof.
  unfold rest_step. intros H Ht L. bstep H k3 E3. bstep H k4 E4.
  eapply handle_key_livet; eauto. eapply run_macro_livet; eauto. eapply expire_livet; eauto.
Qed.

(* ---- the undecided key ------------------------------------------------------------ *)
Lemma pend_livet k p : livet k -> p_code p = 0%N \/ pos (p_expire p) -> Forall evpos (p_queue p) ->
  calm (p_a1 p) -> calm (p_a2 p) -> livet (set_k_pend p k).
Proof.
  intros [[[T1 [_ T3]] [B2 [B3 [B4 [B5 B6]]]]] O] H1 H2 H3 H4. split; [|exact O].
  pose proof (alld_pend calm k p B5 H3 H4). unfold base, tl. kcbn. auto 10.
Qed.
Lemma decide_livet k p a time k' : decide k p a time = Ok k' -> calm a -> calm (p_a1 p) -> calm (p_a2 p) ->
  pos time -> livet k -> livet k'.
Proof.
  unfold decide. intros H Ca C1 C2 Ht L.
  assert (L1 : livet (set_k_pend (set_p_code 0 (set_p_queue [] p)) k)) by (apply pend_livet; auto; constructor).
  destruct (cache_set _ _ _) as [k2|] eqn:E.
  - eapply press_livet; eauto.
  - unfold do_desc in H. destruct L1 as [B O]. split; [eapply pd_base|eapply pd_ovl]; eauto.
Qed.
Lemma action_of p code pressed time : has_op (pending_action p code pressed time) = true ->
  pending_action p code pressed time = p_a1 p \/ pending_action p code pressed time = p_a2 p.
Proof.
  unfold pending_action. destruct (_ <=? _)%Z; auto. destruct (_ =? _)%N; auto.
  destruct (p_beh p); try destruct (_ && _); auto; discriminate.
Qed.
Definition pplan_evs (pl : pplan) : list kev := match pl with PReplay evs => evs | _ => [] end.
Lemma pending_livet k code pressed time k1 pl : pending_plan k code pressed time = Ok (k1, pl) -> pos time ->
  livet k -> livet k1 /\ Forall evpos (pplan_evs pl).
Proof.
  intros H Ht L. unfold pending_plan in H. cbv zeta in H.
  destruct (N.eqb_spec (p_code (k_pend k)) 0) as [Ep|Ep].
  { apply Ok_inj, pair_equal_spec in H as [<- <-]. split; [auto|constructor]. }
  destruct (_ && _); [discriminate|].
  destruct (_ && _). { apply Ok_inj, pair_equal_spec in H as [<- <-]. split; [auto|constructor]. }
  set (p1 := if (code =? 0)%N then k_pend k else set_p_queue (p_queue (k_pend k) ++ [mkKev code pressed time]) (k_pend k)) in *.
  assert (X : (p_code p1 = 0%N \/ pos (p_expire p1)) /\ Forall evpos (p_queue p1) /\ calm (p_a1 p1) /\ calm (p_a2 p1)).
  { destruct L as [[[_ [T _]] [B2 [_ [_ [[_ [_ [_ B5]]] _]]]]] _]. subst p1. destruct (code =? 0)%N.
    - auto.
    - cbn [p_code p_expire p_queue p_a1 p_a2 set_p_queue]. split; [auto|split; [|auto]].
      apply Forall_app. split; auto. }
  destruct X as [X1 [X2 [X3 X4]]]. clearbody p1.
  destruct (has_op _) eqn:Eo.
  - bstep H k3 E3. apply Ok_inj, pair_equal_spec in H as [<- <-]. split; [|exact X2].
    eapply decide_livet; eauto. apply action_of in Eo as [->| ->]; auto.
  - apply Ok_inj, pair_equal_spec in H as [<- <-]. split; [|constructor]. now apply pend_livet.
Qed.

(* ---- chords ------------------------------------------------------------------------ *)
Definition hl (k : kbd) : Prop := h_state (k_chord k) = CsInactive \/ pos (h_last (k_chord k)).
Definition tok (k : kbd) : Prop := Forall pos (k_timeouts k).
Lemma resolve_times k k1 pl : resolve_plan k = Ok (k1, pl) -> pos (h_last (k_chord k)) -> tok k ->
  tok k1 /\ pos (h_last (k_chord k1)).
Proof.
  unfold resolve_plan. intros H Hl Ht. cbv zeta in H. destruct (h_match _).
  - bstep H ch E. destruct (free_chord _ _); [|discriminate]. apply Ok_inj, pair_equal_spec in H as [<- _]. auto.
  - apply Ok_inj, pair_equal_spec in H as [<- _]. auto.
Qed.
Lemma tok_app k t : tok k -> pos t -> Forall pos (k_timeouts k ++ [t]).
Proof. intros H Ht. apply Forall_app. split; auto. Qed.
Lemma matched_times k r time k1 pl : matched_plan k r time = Ok (k1, pl) -> pos time -> calm_set (k_cfg k) -> tok k ->
  tok k1 /\ pos (h_last (k_chord k1)).
Proof.
  unfold matched_plan. intros H Ht C Hk. cbv zeta in H. destruct C as [_ [_ [_ [C1 C2]]]].
  destruct r; try (destruct (_ =? 0)%Z; [eapply resolve_times; eauto; exact Ht|]);
    bstep H k2 E; apply Ok_inj, pair_equal_spec in H as [<- _]; apply schedule_ok in E; subst k2;
    (split; [apply tok_app; auto|exact Ht]).
Qed.
Lemma abort_times k k1 pl : abort_plan k = Ok (k1, pl) -> pos (h_last (k_chord k)) -> tok k ->
  tok k1 /\ pos (h_last (k_chord k1)).
Proof. unfold abort_plan. intros H Hl Ht. eapply resolve_times; eauto. Qed.
Lemma enqueue_same k code pressed time k1 : enqueue_chord_event k code pressed time = Ok k1 ->
  k_timeouts k1 = k_timeouts k /\ k_cfg k1 = k_cfg k /\ h_last (k_chord k1) = h_last (k_chord k)
  /\ h_state (k_chord k1) = h_state (k_chord k).
Proof.
  unfold enqueue_chord_event. intros H. destruct (_ =? 0)%N; [apply Ok_inj in H; now subst|].
  destruct (Nat.ltb _ _); [|discriminate]. apply Ok_inj in H. now subst.
Qed.
Lemma check_same k r k1 : check_chord_match k = (r, k1) ->
  k_timeouts k1 = k_timeouts k /\ k_cfg k1 = k_cfg k /\ h_last (k_chord k1) = h_last (k_chord k)
  /\ h_state (k_chord k1) = h_state (k_chord k).
Proof.
  unfold check_chord_match. destruct (fold_left _ _ _) as [[best mx] part]. destruct best as [[li ci]|]; intros [= <- <-]; auto.
Qed.
Lemma chord_times k code pressed time k1 pl : chord_plan k code pressed time = Ok (k1, pl) -> pos time ->
  calm_set (k_cfg k) -> tok k -> hl k ->
  tok k1 /\ (hl k1 /\ match pl with PlanReplay _ _ => pos (h_last (k_chord k1)) | _ => True end).
Proof.
  intros H Ht C Hk Hh.
  assert (W : tok k1 /\ pos (h_last (k_chord k1)) -> tok k1 /\ (hl k1 /\ match pl with PlanReplay _ _ => pos (h_last (k_chord k1)) | _ => True end)).
  { intros [A B]. split; auto. split; [now right|]. destruct pl; auto. }
  unfold chord_plan in H. cbv zeta in H.
  destruct (if negb (code =? 0)%N && negb pressed then chord_of_key (k_achords k) code 0 else None) as [i|].
  { unfold chord_up in H. cbv zeta in H. apply Ok_inj, pair_equal_spec in H as [<- <-].
    split; [exact Hk|]. split; [exact Hh|]. now destruct (existsb _ _). }
  destruct (h_state (k_chord k)) eqn:Es.
  - apply Ok_inj, pair_equal_spec in H as [<- <-]. auto.
  - bstep H k2 E2. destruct (check_chord_match k2) as [r k3] eqn:E3. apply enqueue_same in E2 as [A1 [A2 [A3 A4]]].
    apply check_same in E3 as [B1 [B2 [B3 B4]]]. cbn [k_timeouts k_cfg k_chord set_k_chord h_last h_state set_h_match set_h_queue] in *.
    assert (T3 : tok k3) by (unfold tok; now rewrite B1, A1).
    assert (C3 : calm_set (k_cfg k3)) by (now rewrite B2, A2).
    destruct r; [|now apply W; eapply matched_times; eauto..].
    apply Ok_inj, pair_equal_spec in H as [<- <-]. split; auto. split; auto. left. now rewrite B4, A4.
  - destruct Hh as [Hh|Hh]; [congruence|]. destruct (code =? 0)%N.
    + destruct (_ <=? _)%Z; [|apply Ok_inj, pair_equal_spec in H as [<- <-]; auto].
      destruct (h_match _).
      * destruct (Z.ltb_spec 0 (c_chord_hold (k_cfg k) - c_chord_interkey (k_cfg k))) as [L|L].
        -- bstep H k2 E. apply Ok_inj, pair_equal_spec in H as [<- <-]. apply schedule_ok in E. subst k2.
           apply W. split; [|exact Hh]. apply tok_app; auto. apply pos_add; auto. lia.
        -- apply W. eapply resolve_times; eauto.
      * apply W. eapply abort_times; eauto.
    + bstep H k2 E2. apply enqueue_same in E2 as [A1 [A2 [A3 A4]]].
      assert (T2 : tok k2) by (unfold tok; now rewrite A1). rewrite <- A3 in Hh. rewrite <- A2 in C.
      destruct (negb pressed); [apply W; eapply abort_times; eauto|].
      destruct (check_chord_match k2) as [r k3] eqn:E3. apply check_same in E3 as [B1 [B2 [B3 B4]]].
      assert (T3 : tok k3) by (unfold tok; now rewrite B1). rewrite <- B3 in Hh. rewrite <- B2 in C.
      destruct r; apply W; [eapply abort_times|eapply matched_times..]; eauto.
  - destruct Hh as [Hh|Hh]; [congruence|]. destruct (code =? 0)%N.
    + destruct (_ <=? _)%Z; [|apply Ok_inj, pair_equal_spec in H as [<- <-]; auto].
      apply W. eapply resolve_times; eauto.
    + bstep H k2 E2. apply enqueue_same in E2 as [A1 [A2 [A3 A4]]].
      assert (T2 : tok k2) by (unfold tok; now rewrite A1). rewrite <- A3 in Hh.
      destruct (negb pressed); [|apply Ok_inj, pair_equal_spec in H as [<- <-]; auto].
      destruct (h_match _); [|discriminate]. bstep H ch E4.
      destruct (in_keys _ _); [apply W; eapply abort_times; eauto|apply Ok_inj, pair_equal_spec in H as [<- <-]; auto].
Qed.
Lemma chord_livet k code pressed time k1 pl : chord_plan k code pressed time = Ok (k1, pl) -> pos time -> livet k ->
  livet k1 /\ Forall evpos (replays pl)
  /\ match pl with PlanReplay _ _ => pos (h_last (k_chord k1)) | _ => True end.
Proof.
  intros H Ht [[B1 [B2 [B3 [B4 [B5 B6]]]]] O]. pose proof B1 as [T1 [T2 [T3 T4]]].
  pose proof (chord_plan_shape _ _ _ _ _ H) as [S1 [S2 [S3 _]]].
  pose proof (chord_times _ _ _ _ _ _ H Ht B6 T1 B4) as [C1 [C2 C3]].
  pose proof (chord_alld calm calm_closed _ _ S1 B5) as A.
  assert (Q : forall e, In e (h_queue (k_chord k)) \/ In e [mkKev code pressed time] -> evpos e).
  { rewrite Forall_forall in B3. intros e [He|[<-|[]]]; auto. }
  split; [|split; [apply Forall_forall; auto|exact C3]].
  destruct S1 as [q [acs [ts [-> _]]]]. split; [|exact O].
  split; [split; [exact C1|auto]|]. split; [exact B2|]. split; [apply Forall_forall; auto|].
  split; [exact C2|]. split; [exact A|exact B6].
Qed.
Lemma inactive_livet k : livet k -> livet (set_cstate CsInactive k).
Proof.
  intros [[B1 [B2 [B3 [B4 [B5 B6]]]]] O]. split; [|exact O]. unfold base, set_cstate. kcbn.
  split; [exact B1|]. split; [exact B2|]. split; [exact B3|]. split; [now left|]. auto.
Qed.
Lemma time_livet k f : livet k -> livet (set_k_timeouts (filter f (k_timeouts k)) k).
Proof.
  intros [[[T1 T2] B] O]. split; [|exact O]. split; [|exact B]. split; [|exact T2].
  rewrite Forall_forall in *. cbn [k_timeouts set_k_timeouts]. intros x Hx. apply filter_In in Hx as [Hx _]. auto.
Qed.
Lemma new_livet c clk : calm_cfg c -> livet (new_keyboard c clk).
Proof.
  intros [C1 C2]. split.
  - split; [|split; [constructor|split; [constructor|split; [now left|split; [|exact C2]]]]].
    + split; [constructor|]. auto.
    + split; [exact C1|]. split; [|split; [|split; exact Logic.I]].
      * intros d H. cbn [k_cache new_keyboard] in H. apply in_map_iff in H as [e [<- H]]. apply repeat_spec in H. subst. exact Logic.I.
      * intros ac H. cbn [k_achords new_keyboard] in H. apply (repeat_spec 3) in H. subst. exact Logic.I.
  - intros [l [a H]]. cbn [k_cache new_keyboard] in H. apply in_map_iff in H as [e [E H]]. apply repeat_spec in H. subst. discriminate.
Qed.
End Times.
