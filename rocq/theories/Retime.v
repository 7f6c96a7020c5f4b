(* The actions of the engine do not look at clocks: replacing every point in time
   kept in the state, and the undecided key, commutes with them. *)
From Verif Require Import Base Lib Keys Types MacroExec Kbd Engine ModsProofs ActProofs Inv TermProofs Times.

Definition mapr {A B} (f : A -> B) (r : res A) : res B :=
  match r with Ok a => Ok (f a) | Crash c => Crash c | UB => UB | NoFuel => NoFuel end.
Lemma mapr_bind {A A' B B'} (f : A -> A') (g : B -> B') (e : res A) (e' : res A') h h' :
  e' = mapr f e -> (forall a, e = Ok a -> h' (f a) = mapr g (h a)) -> bind e' h' = mapr g (bind e h).
Proof. intros -> H. destruct e; cbn [bind mapr]; auto. Qed.
Lemma mapr_Ok {A B} (f : A -> B) a : Ok (f a) = mapr f (Ok a).
Proof. reflexivity. Qed.

Lemma pre_overload pressed dl k k0 l a : pre_macro (DOverload l a) pressed dl k = Ok k0 -> k0 = k.
Proof. unfold pre_macro. destruct pressed; intros H; now apply Ok_inj in H. Qed.
Lemma fold_comm {A B} (f : A -> B -> A) (h : A -> A) : (forall a b, f (h a) b = h (f a b)) ->
  forall l a, fold_left f l (h a) = h (fold_left f l a).
Proof. intros H. induction l as [|b l IH]; intros a; cbn [fold_left]; [reflexivity|]. rewrite H. apply IH. Qed.

Section Retime.
Variable fp : pend -> pend.
Variable fc : chst -> chst.
Variable fz : Z -> Z.
Hypothesis fz_0 : fz 0 = 0%Z.

Definition re (k : kbd) : kbd :=
  set_k_pend (fp (k_pend k)) (set_k_chord (fc (k_chord k)) (set_k_timeouts (map fz (k_timeouts k))
    (set_k_macro_to (fz (k_macro_to k)) (set_k_oneshot_to (fz (k_oneshot_to k))
      (set_k_ovl_start (fz (k_ovl_start k)) (set_k_last_simple (fz (k_last_simple k)) k)))))).

Lemma re_send k c p : send_key (re k) c p = re (send_key k c p).
Proof.
  unfold send_key. destruct (_ || _); [reflexivity|]. destruct p.
  - change (k_ks (set_k_last_out c (re k)) c) with (k_ks (set_k_last_out c k) c).
    destruct (Bool.eqb _ _); reflexivity.
  - change (k_ks (re k) c) with (k_ks k c). destruct (Bool.eqb _ _); reflexivity.
Qed.
Lemma re_clear_mod inh k c : clear_mod inh (re k) c = re (clear_mod inh k c).
Proof.
  unfold clear_mod. change (k_last_out (re k)) with (k_last_out k). change (k_cfg (re k)) with (k_cfg k).
  change (k_ks (re k)) with (k_ks k). destruct (_ && _); rewrite ?re_send; reflexivity.
Qed.
Lemma re_ks k c : k_ks (re k) c = k_ks k c. Proof. reflexivity. Qed.
Lemma re_set_mod1 inh w k mask c : set_mod1 inh w (re k) (mask, c) = re (set_mod1 inh w k (mask, c)).
Proof.
  unfold set_mod1. rewrite re_ks. destruct (hasmod mask w); destruct (k_ks k c);
    [reflexivity|apply re_send|apply re_clear_mod|reflexivity].
Qed.
Lemma re_set_mods inh w : forall l k, fold_left (set_mod1 inh w) l (re k) = re (fold_left (set_mod1 inh w) l k).
Proof. apply fold_comm. intros k [mask c]. apply re_set_mod1. Qed.
Lemma re_active k e m : active_mods (re k) e m = active_mods k e m.
Proof. reflexivity. Qed.
Lemma re_update inh k e m : update_mods inh (re k) e m = re (update_mods inh k e m).
Proof. unfold update_mods, set_mods. rewrite re_active. apply re_set_mods. Qed.
Lemma re_emits os k : emits os (re k) = re (emits os k). Proof. reflexivity. Qed.
Lemma re_cfg k : k_cfg (re k) = k_cfg k. Proof. reflexivity. Qed.
Local Opaque update_mods send_key emits.
Lemma re_macro k dl m : execute_macro (re k) dl m = re (execute_macro k dl m).
Proof.
  unfold execute_macro. rewrite re_cfg.
  destruct m as [|[[] dt] [|]]; rewrite ?re_update, ?re_send, ?re_emits; reflexivity.
Qed.
Local Opaque execute_macro.
Lemma re_set_lsi i l k : set_lsi i l (re k) = re (set_lsi i l k). Proof. reflexivity. Qed.
Lemma re_ls k : k_ls (re k) = k_ls k. Proof. reflexivity. Qed.
Lemma re_nlayers k : nlayers (re k) = nlayers k. Proof. reflexivity. Qed.
Lemma re_layer_at k i : layer_at (re k) i = layer_at k i. Proof. reflexivity. Qed.
Lemma re_deactivate k i : deactivate_layer (re k) i = mapr re (deactivate_layer k i).
Proof.
  unfold deactivate_layer. unfold chk_layer. destruct (Nat.ltb _ _); [|reflexivity]. cbn [bind].
  change (k_ls (re k)) with (k_ls k). destruct (_ =? 0)%N; reflexivity.
Qed.
Lemma re_activate k c i : activate_layer (re k) c i = mapr re (activate_layer k c i).
Proof. unfold activate_layer, chk_layer. destruct (Nat.ltb _ _); reflexivity. Qed.
Lemma re_drop i : forall n k, drop_oneshots n (re k) i = mapr re (drop_oneshots n k i).
Proof.
  induction n; intros k; cbn [drop_oneshots]; [reflexivity|].
  eapply mapr_bind; [apply re_deactivate|]. intros k1 _. cbv zeta. rewrite re_ls, re_set_lsi. apply IHn.
Qed.
Lemma re_clear_layers : forall l k, clear_oneshot_layers l (re k) = mapr re (clear_oneshot_layers l k).
Proof.
  induction l as [|i l IH]; intros k; cbn [clear_oneshot_layers]; [reflexivity|].
  eapply mapr_bind; [apply (re_drop i)|]. intros k1 _. apply IH.
Qed.
Lemma re_clear_oneshot k : clear_oneshot (re k) = mapr re (clear_oneshot k).
Proof.
  unfold clear_oneshot. rewrite re_nlayers. eapply mapr_bind; [apply re_clear_layers|]. intros k1 _.
  cbn [mapr]. f_equal. unfold re. cbn [k_pend k_chord k_timeouts k_macro_to k_oneshot_to k_ovl_start k_last_simple
    set_k_latch set_k_oneshot_to]. rewrite fz_0. reflexivity.
Qed.
Lemma re_clear_toggled : forall l k, clear_toggled l (re k) = mapr re (clear_toggled l k).
Proof.
  induction l as [|i l IH]; intros k; cbn [clear_toggled]; [reflexivity|].
  eapply mapr_bind; [|intros k1 _; apply IH].
  rewrite re_layer_at, re_ls. destruct (_ && _); [|reflexivity]. rewrite re_set_lsi. apply re_deactivate.
Qed.
Lemma re_reset_key k i : reset_key (re k) i = re (reset_key k i).
Proof. unfold reset_key. rewrite re_ks. destruct (k_ks k _); reflexivity. Qed.
Lemma re_reset_keys : forall l k, fold_left reset_key l (re k) = re (fold_left reset_key l k).
Proof. apply fold_comm, re_reset_key. Qed.
Lemma re_reset k : reset_keystate (re k) = re (reset_keystate k).
Proof. exact (re_reset_keys (seq 0 256) k). Qed.
Lemma re_amacro x k : set_k_amacro x (re k) = re (set_k_amacro x k). Proof. reflexivity. Qed.
Local Opaque reset_keystate clear_oneshot_layers clear_toggled.
Lemma re_clear k : clear (re k) = mapr re (clear k).
Proof.
  unfold clear. eapply mapr_bind; [apply re_clear_oneshot|]. intros k1 _.
  rewrite re_nlayers. eapply mapr_bind; [apply re_clear_toggled|]. intros k2 _.
  cbn [mapr]. rewrite re_amacro, re_reset. reflexivity.
Qed.
Local Opaque clear clear_oneshot.
Lemma re_drop_layout : forall l k, fold_left drop_layout l (re k) = re (fold_left drop_layout l k).
Proof.
  apply fold_comm. intros k i.
  unfold drop_layout. rewrite re_layer_at, re_ls, re_set_lsi. destruct (is_layout _); reflexivity.
Qed.
Lemma re_indicator k : indicator (re k) = indicator k. Proof. reflexivity. Qed.
Lemma re_emit o k : emit o (re k) = re (emit o k). Proof. reflexivity. Qed.
Lemma re_setlayout k i : setlayout (re k) i = mapr re (setlayout k i).
Proof.
  unfold setlayout, chk_layer. destruct (Nat.ltb _ _); [|reflexivity]. cbn [bind].
  eapply mapr_bind; [apply re_clear|]. intros k1 _. cbv zeta. rewrite re_nlayers, re_drop_layout.
  generalize (fold_left drop_layout (seq 1 (nlayers k1 - 1)) k1) as k2. intros k2.
  destruct (Nat.eqb i 0); rewrite ?re_ls, ?re_set_lsi, re_indicator, re_emit; reflexivity.
Qed.
Lemma re_cache k : k_cache (re k) = k_cache k. Proof. reflexivity. Qed.
Lemma re_set_cache c k : set_k_cache c (re k) = re (set_k_cache c k). Proof. reflexivity. Qed.
Lemma re_slot c dl k : forall i, swap_slot (re k) c dl i = swap_slot k c dl i.
Proof. induction c as [|e r IH]; intros i; cbn [swap_slot]; [reflexivity|]. now rewrite IH, re_layer_at. Qed.
Local Opaque activate_layer deactivate_layer setlayout.
Lemma re_swap k dl i : do_swap (re k) dl i = mapr re (do_swap k dl i).
Proof.
  unfold do_swap, chk_layer. destruct (Nat.ltb dl _); [|reflexivity]. destruct (Nat.ltb i _); [|reflexivity]. cbn [bind].
  rewrite re_ls, re_cache, re_slot.
  destruct (l_toggled _); [|destruct (negb _); [|destruct (swap_slot _ _ _ _) as [j|]]].
  - eapply mapr_bind; [apply re_deactivate|]. intros k1 _. cbv zeta. rewrite re_ls, re_set_lsi.
    eapply mapr_bind; [apply re_activate|]. intros k3 _. rewrite re_ls, re_set_lsi, re_update. reflexivity.
  - eapply mapr_bind; [apply re_deactivate|]. intros k1 _. cbv zeta. rewrite re_ls, re_set_lsi.
    eapply mapr_bind; [apply re_activate|]. intros k3 _. rewrite re_ls, re_set_lsi, re_update. reflexivity.
  - cbv zeta. rewrite re_set_cache. eapply mapr_bind; [apply re_deactivate|]. intros k1 _.
    eapply mapr_bind; [apply re_activate|]. intros k3 _. rewrite re_update. reflexivity.
  - reflexivity.
Qed.
Local Opaque do_swap.
Lemma re_schedule k t : schedule_timeout (re k) (fz t) = mapr re (schedule_timeout k t).
Proof.
  unfold schedule_timeout. replace (length (k_timeouts (re k))) with (length (k_timeouts k))
    by (symmetry; apply map_length).
  destruct (Nat.ltb _ _); [|reflexivity]. cbn [mapr]. f_equal. unfold re.
  cbn [k_pend k_chord k_timeouts k_macro_to k_oneshot_to k_ovl_start k_last_simple set_k_timeouts set_k_pend set_k_chord
    set_k_macro_to set_k_oneshot_to set_k_ovl_start set_k_last_simple]. rewrite map_app. reflexivity.
Qed.
Lemma re_macro_at k m : macro_at (re k) m = macro_at k m. Proof. reflexivity. Qed.
Lemma re_pre d pressed dl k : pre_macro d pressed dl (re k) = mapr re (pre_macro d pressed dl k).
Proof.
  unfold pre_macro. destruct pressed; [|reflexivity]. destruct d; try reflexivity;
    rewrite re_macro_at; destruct (macro_at k m); cbn [bind mapr]; auto; now rewrite re_macro.
Qed.
Local Opaque pre_macro.

(* points in time are moved in step with the events *)
Definition on_time (time t : Z) : Prop := fz (time + t) = (fz time + t)%Z.

Lemma re_set_simple t k : set_k_last_simple (fz t) (re k) = re (set_k_last_simple t k). Proof. reflexivity. Qed.
Lemma re_key k c m dl pressed time :
  pd_key (re k) c m dl pressed (fz time) = mapr re (pd_key k c m dl pressed time).
Proof.
  unfold pd_key. eapply mapr_bind with (f := re).
  - destruct pressed.
    + rewrite re_ks. destruct (k_ks k c); rewrite ?re_send, ?re_update, ?re_send; apply re_clear_oneshot.
    + cbn [mapr]. now rewrite re_send, re_update.
  - intros k1 _. destruct (_ || _); rewrite ?re_set_simple; reflexivity.
Qed.
Lemma re_last_code k : k_last_code (re k) = k_last_code k. Proof. reflexivity. Qed.
Lemma re_layer k c i pressed : pd_layer (re k) c i pressed = mapr re (pd_layer k c i pressed).
Proof.
  unfold pd_layer. eapply mapr_bind with (f := re).
  - destruct pressed; [apply re_activate|apply re_deactivate].
  - intros k1 _. now rewrite re_last_code, re_update.
Qed.
Lemma re_latch k : k_latch (re k) = k_latch k. Proof. reflexivity. Qed.
Lemma re_set_latch b k : set_k_latch b (re k) = re (set_k_latch b k). Proof. reflexivity. Qed.
Lemma re_set_oneshot t k : set_k_oneshot_to (fz t) (re k) = re (set_k_oneshot_to t k). Proof. reflexivity. Qed.
Lemma re_oneshot k c i dl pressed time : on_time time (c_oneshot_timeout (k_cfg k)) ->
  pd_oneshot (re k) c i dl pressed (fz time) = mapr re (pd_oneshot k c i dl pressed time).
Proof.
  intros Ht. unfold pd_oneshot. destruct pressed; [|rewrite re_latch; destruct (k_latch k)].
  - eapply mapr_bind; [apply re_activate|]. intros k1 _. rewrite re_update, re_set_latch. reflexivity.
  - unfold chk_layer. destruct (Nat.ltb _ _); [|reflexivity]. cbn [bind]. cbv zeta. rewrite re_cfg, re_ls, re_set_lsi.
    destruct (_ =? 0)%Z; [reflexivity|]. rewrite <- Ht, re_set_oneshot. apply re_schedule.
  - eapply mapr_bind; [apply re_deactivate|]. intros k1 _. now rewrite re_update.
Qed.
Lemma re_set_repeat r k : set_k_repeat r (re k) = re (set_k_repeat r k). Proof. reflexivity. Qed.
Lemma re_set_mto t l a k : set_k_macro_to (fz t) (set_k_amacro_layer l (set_k_amacro a (re k)))
  = re (set_k_macro_to t (set_k_amacro_layer l (set_k_amacro a k))).
Proof. reflexivity. Qed.
Lemma re_pmacro k m t r dl pressed time : on_time time t ->
  pd_macro (re k) m t r dl pressed (fz time) = mapr re (pd_macro k m t r dl pressed time).
Proof.
  intros Ht. unfold pd_macro. destruct pressed; [|reflexivity]. rewrite re_macro_at.
  destruct (macro_at k m) as [mm| | |]; cbn [bind mapr]; auto. rewrite re_set_repeat.
  eapply mapr_bind; [apply re_clear_oneshot|]. intros k1 _. cbv zeta. rewrite re_macro, <- Ht, re_set_mto.
  apply re_schedule.
Qed.
Lemma re_toggle k c i pressed : pd_toggle (re k) c i pressed = mapr re (pd_toggle k c i pressed).
Proof.
  unfold pd_toggle. destruct pressed; [|reflexivity]. unfold chk_layer. destruct (Nat.ltb _ _); [|reflexivity].
  cbn [bind]. cbv zeta. rewrite re_ls, re_set_lsi. eapply mapr_bind with (f := re).
  - destruct (l_toggled (k_ls k i)); [apply re_deactivate|apply re_activate].
  - intros k1 _. rewrite re_update. apply re_clear_oneshot.
Qed.
Lemma re_pswap k i dl mm pressed : pd_swap (re k) i dl mm pressed = mapr re (pd_swap k i dl mm pressed).
Proof.
  unfold pd_swap. destruct pressed.
  - eapply mapr_bind; [apply re_swap|]. intros k1 _. destruct mm; cbn [mapr]; now rewrite ?re_macro.
  - cbn [mapr]. f_equal. destruct mm as [[|[[] dt] [|]]|]; rewrite ?re_send, ?re_update; reflexivity.
Qed.
Lemma re_set_pend p k : re (set_k_pend p k) = set_k_pend (fp p) (re k). Proof. reflexivity. Qed.
Lemma re_pend k : k_pend (re k) = fp (k_pend k). Proof. reflexivity. Qed.
Lemma re_pending k code dl time t b a1 a2 : on_time time t ->
  fp (mkPend code dl (time + t) b (p_queue (k_pend k)) a1 a2)
  = mkPend code dl (fz (time + t)) b (p_queue (fp (k_pend k))) a1 a2 ->
  set_pending (re k) code dl (fz time + t) b a1 a2 = mapr re (set_pending k code dl (time + t) b a1 a2).
Proof.
  intros Ht Hp. unfold set_pending. cbv zeta. rewrite <- Ht, <- re_schedule. f_equal.
  now rewrite re_set_pend, re_pend, Hp.
Qed.
Local Opaque pd_key pd_layer pd_oneshot pd_macro pd_toggle pd_swap set_pending.

(* what is asked of an action, with the configuration its parts refer to *)
Definition in_step (c : config) (time : Z) (d : desc) : Prop :=
  match d with
  | DOneshot _ | DOneshotM _ _ => on_time time (c_oneshot_timeout c)
  | DMacro _ => on_time time (c_macro_timeout c)
  | DMacro2 t _ _ => on_time time t
  | DOverloadT _ _ t | DOverloadT2 _ _ t | DTimeout _ t _ =>
      on_time time t
      /\ forall q code dl b a1 a2, fp (mkPend code dl (time + t) b (p_queue q) a1 a2)
           = mkPend code dl (fz (time + t)) b (p_queue (fp q)) a1 a2
  | DOverloadI _ _ _ => forall z, (fz time - fz z = time - z)%Z
  | _ => True
  end.
Variable P : config -> Z -> desc -> Prop.
Hypothesis P_step : forall c time d, P c time d -> in_step c time d.
Hypothesis P_overload : forall c time l a, P c time (DOverload l a) -> P c time (nth a (c_descs c) DNone).
Hypothesis P_idle : forall c time a b t, P c time (DOverloadI a b t) ->
  P c time (nth a (c_descs c) DNone) /\ P c time (nth b (c_descs c) DNone).

Lemma re_desc_at k i : desc_at (re k) i = desc_at k i. Proof. reflexivity. Qed.
Lemma re_cmd_at k i : cmd_at (re k) i = cmd_at k i. Proof. reflexivity. Qed.
Lemma re_scroll k : k_scroll (re k) = k_scroll k. Proof. reflexivity. Qed.
Lemma re_set_scroll s k : set_k_scroll s (re k) = re (set_k_scroll s k). Proof. reflexivity. Qed.
Lemma re_set_ovl t k : set_k_ovl_start (fz t) (re k) = re (set_k_ovl_start t k). Proof. reflexivity. Qed.
Lemma re_set_last x k : set_k_last_code x (re k) = re (set_k_last_code x k). Proof. reflexivity. Qed.
Lemma re_ovl k : k_ovl_start (re k) = fz (k_ovl_start k). Proof. reflexivity. Qed.
Lemma re_simple k : k_last_simple (re k) = fz (k_last_simple k). Proof. reflexivity. Qed.
Lemma re_replace k c d : cache_replace_d (re k) c d = re (cache_replace_d k c d).
Proof. unfold cache_replace_d. rewrite re_cache. destruct (cache_find _ _ _); reflexivity. Qed.
Local Opaque re.
Lemma desc_at_nth k i d : desc_at k i = Ok d -> d = nth i (c_descs (k_cfg k)) DNone.
Proof. unfold desc_at. destruct (N.ltb _ _); [|discriminate]. intros H. now apply Ok_inj in H. Qed.

Lemma re_pd : forall fuel k code d dl (pressed : bool) time, P (k_cfg k) time d ->
  (pressed = false -> forall l a, d = DOverload l a -> (fz time - fz (k_ovl_start k) = time - k_ovl_start k)%Z) ->
  process_descriptor fuel (re k) code d dl pressed (fz time)
  = mapr re (process_descriptor fuel k code d dl pressed time).
Proof.
  induction fuel as [|fuel IH]; intros k code d dl pressed time HP Ho; [reflexivity|].
  cbn [process_descriptor]. eapply mapr_bind; [apply re_pre|]. intros k0 E0.
  assert (Ec : k_cfg k0 = k_cfg k /\ (forall l a, d = DOverload l a -> k0 = k)).
  { apply pre_cfg in E0 as E1. split; [apply E1|]. intros l a ->. exact (pre_overload _ _ _ _ _ _ E0). }
  destruct Ec as [Ec Ek]. rewrite <- Ec in HP. pose proof (P_step _ _ _ HP) as HS. unfold in_step in HS.
  eapply mapr_bind with (f := re).
  2: { intros k1 _. destruct pressed; rewrite ?re_set_last; reflexivity. }
  destruct d.
  - reflexivity.
  - apply re_key.
  - apply re_oneshot, HS.
  - apply re_oneshot, HS.
  - apply re_layer.
  - apply re_pswap.
  - rewrite re_macro_at. destruct (macro_at k0 m); cbn [bind mapr]; auto. apply re_pswap.
  - apply re_layer.
  - destruct pressed; [apply re_setlayout|reflexivity].
  - destruct pressed; [apply re_clear|reflexivity].
  - destruct pressed; [|reflexivity]. rewrite re_macro_at. destruct (macro_at k0 m); cbn [bind mapr]; auto.
    eapply mapr_bind; [apply re_clear|]. intros k1 _. now rewrite re_macro.
  - rewrite re_desc_at. destruct (desc_at k0 a) as [ac| | |] eqn:Ea; cbn [bind mapr]; auto.
    destruct pressed.
    + rewrite re_set_ovl. eapply mapr_bind; [apply re_activate|]. intros k1 _. now rewrite re_update.
    + specialize (Ek _ _ eq_refl). subst k0. specialize (Ho eq_refl _ _ eq_refl).
      eapply mapr_bind; [apply re_deactivate|]. intros k1 E1. cbv zeta. rewrite re_update.
      apply deactivate_ok in E1 as [_ [x E1]].
      assert (E2 : k_cfg (update_mods false k1 None 0) = k_cfg k
                   /\ k_ovl_start (update_mods false k1 None 0) = k_ovl_start k).
      { destruct (update_mods_only false k1 None 0%N) as [? [? [? H]]]. rewrite H, E1. split; reflexivity. }
      set (k2 := update_mods false k1 None 0) in *. clearbody k2. clear E1 E0 k1. destruct E2 as [E2 E3].
      rewrite re_last_code, re_cfg, re_ovl. rewrite E3, Ho. rewrite <- E3.
      destruct (_ && _); [|reflexivity].
      assert (Pa : P (k_cfg k2) time ac).
      { rewrite E2. apply desc_at_nth in Ea. subst ac. eapply P_overload. exact HP. }
      assert (G : (k3 <- process_descriptor fuel (re k2) code ac dl true (fz time);;
                   process_descriptor fuel k3 code ac dl false (fz time))
                  = mapr re (k3 <- process_descriptor fuel k2 code ac dl true time;;
                             process_descriptor fuel k3 code ac dl false time)).
      { eapply mapr_bind; [apply IH; [exact Pa|discriminate]|]. intros k3 E4. apply IH.
        - apply pd_frame in E4 as [E4 _]. now rewrite E4.
        - intros _ l' a' ->. apply overload_start in E4. rewrite E4. lia. }
      destruct ac; try exact G. rewrite re_macro_at. destruct (macro_at k2 m); cbn [bind mapr]; auto. now rewrite re_macro.
  - rewrite re_desc_at. destruct pressed; [|reflexivity]. destruct (desc_at k0 a) as [ac| | |]; cbn [bind mapr]; auto.
    apply re_pending; apply HS.
  - rewrite re_desc_at. destruct pressed; [|reflexivity]. destruct (desc_at k0 a) as [ac| | |]; cbn [bind mapr]; auto.
    apply re_pending; apply HS.
  - destruct pressed; [|reflexivity]. rewrite re_desc_at, re_simple, HS. destruct (P_idle _ _ _ _ _ HP) as [Pa Pb].
    destruct (desc_at k0 (if (t <=? time - k_last_simple k0)%Z then a2 else a1)) as [ac| | |] eqn:Ea; cbn [bind mapr]; auto.
    eapply mapr_bind; [apply IH; [|discriminate]|].
    + apply desc_at_nth in Ea. subst ac. destruct (_ <=? _)%Z; assumption.
    + intros k1 _. now rewrite re_replace.
  - apply re_toggle.
  - apply re_toggle.
  - rewrite re_cfg. apply re_pmacro, HS.
  - apply re_pmacro, HS.
  - destruct pressed; [|reflexivity]. rewrite re_cmd_at. destruct (cmd_at k0 c) as [cm| | |]; cbn [bind mapr]; auto.
    rewrite re_emit. eapply mapr_bind; [apply re_clear_oneshot|]. intros k1 _. now rewrite re_update.
  - destruct pressed; [|reflexivity]. rewrite !re_desc_at.
    destruct (desc_at k0 a1) as [x1| | |]; cbn [bind mapr]; auto. destruct (desc_at k0 a2) as [x2| | |]; cbn [bind mapr]; auto.
    apply re_pending; apply HS.
  - rewrite re_scroll, re_set_scroll. reflexivity.
  - rewrite re_scroll, re_set_scroll. reflexivity.
Qed.
Lemma re_do k code d dl (pressed : bool) time : P (k_cfg k) time d ->
  (pressed = false -> forall l a, d = DOverload l a -> (fz time - fz (k_ovl_start k) = time - k_ovl_start k)%Z) ->
  do_desc (re k) code d dl pressed (fz time) = mapr re (do_desc k code d dl pressed time).
Proof. unfold do_desc, pd_fuel. rewrite re_cfg. apply re_pd. Qed.
End Retime.
