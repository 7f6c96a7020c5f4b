(* The engine does not look at chords outside the chord stage: removing all chords from
   the configuration commutes with everything else. *)
From Verif Require Import Base Lib Keys Types MacroExec Kbd Engine ModsProofs ActProofs Inv TermProofs Retime Shift SpecChord.

Section Bare.
Variable q : chst.

Definition bare (k : kbd) : kbd := set_k_chord q (set_k_cfg (unchord (k_cfg k)) k).

Lemma be_send k c p : send_key (bare k) c p = bare (send_key k c p).
Proof.
  unfold send_key. destruct (_ || _); [reflexivity|]. destruct p.
  - change (k_ks (set_k_last_out c (bare k)) c) with (k_ks (set_k_last_out c k) c).
    destruct (Bool.eqb _ _); reflexivity.
  - change (k_ks (bare k) c) with (k_ks k c). destruct (Bool.eqb _ _); reflexivity.
Qed.
Lemma be_clear_mod inh k c : clear_mod inh (bare k) c = bare (clear_mod inh k c).
Proof.
  unfold clear_mod. change (k_last_out (bare k)) with (k_last_out k). change (c_no_guard (k_cfg (bare k))) with (c_no_guard (k_cfg k)).
  change (k_ks (bare k)) with (k_ks k). destruct (_ && _); rewrite ?be_send; reflexivity.
Qed.
Lemma be_ks k c : k_ks (bare k) c = k_ks k c. Proof. reflexivity. Qed.
Lemma be_set_mod1 inh w k mask c : set_mod1 inh w (bare k) (mask, c) = bare (set_mod1 inh w k (mask, c)).
Proof.
  unfold set_mod1. rewrite be_ks. destruct (hasmod mask w); destruct (k_ks k c);
    [reflexivity|apply be_send|apply be_clear_mod|reflexivity].
Qed.
Lemma be_set_mods inh w : forall l k, fold_left (set_mod1 inh w) l (bare k) = bare (fold_left (set_mod1 inh w) l k).
Proof. apply fold_comm. intros k [mask c]. apply be_set_mod1. Qed.
Lemma be_nlayers k : nlayers (bare k) = nlayers k. Proof. apply map_length. Qed.
Lemma be_layer_at k i : layer_at (bare k) i = unchord_layer (layer_at k i).
Proof. exact (map_nth unchord_layer (c_layers (k_cfg k)) zero_layer i). Qed.
Lemma be_type k i : ly_type (layer_at (bare k) i) = ly_type (layer_at k i).
Proof. rewrite be_layer_at. reflexivity. Qed.
Lemma be_keymap k i : ly_keymap (layer_at (bare k) i) = ly_keymap (layer_at k i).
Proof. rewrite be_layer_at. reflexivity. Qed.
Lemma be_const k i : ly_const (layer_at (bare k) i) = ly_const (layer_at k i).
Proof. rewrite be_layer_at. reflexivity. Qed.
Lemma be_mods k i : ly_mods (layer_at (bare k) i) = ly_mods (layer_at k i).
Proof. rewrite be_layer_at. reflexivity. Qed.
Lemma be_ls k : k_ls (bare k) = k_ls k. Proof. reflexivity. Qed.
Lemma be_is_active k i : is_active (bare k) i = is_active k i. Proof. reflexivity. Qed.
Local Opaque bare.
Lemma be_excluded k e i : excluded (bare k) e i = excluded k e i.
Proof. destruct e; cbn [excluded]; rewrite ?be_type, ?be_const; reflexivity. Qed.
Lemma be_active k e m : active_mods (bare k) e m = active_mods k e m.
Proof.
  unfold active_mods. rewrite be_nlayers. apply fold_ext.
  intros a i. now rewrite be_is_active, be_excluded, be_mods.
Qed.
Local Transparent bare.
Lemma be_update inh k e m : update_mods inh (bare k) e m = bare (update_mods inh k e m).
Proof. unfold update_mods, set_mods. rewrite be_active. apply be_set_mods. Qed.
Lemma be_emits os k : emits os (bare k) = bare (emits os k). Proof. reflexivity. Qed.

Local Opaque update_mods send_key emits.
Lemma be_macro k dl m : execute_macro (bare k) dl m = bare (execute_macro k dl m).
Proof.
  unfold execute_macro. change (c_macro_seq_timeout (k_cfg (bare k))) with (c_macro_seq_timeout (k_cfg k)).
  destruct m as [|[[] dt] [|]]; rewrite ?be_update, ?be_send, ?be_emits; reflexivity.
Qed.
Local Opaque execute_macro.
Lemma be_set_lsi i l k : set_lsi i l (bare k) = bare (set_lsi i l k). Proof. reflexivity. Qed.
Lemma be_indicator k : indicator (bare k) = indicator k.
Proof.
  unfold indicator. rewrite be_nlayers. induction (seq 1 (nlayers k - 1)) as [|i l IH]; cbn [existsb]; [reflexivity|].
  now rewrite IH, be_type, be_is_active.
Qed.
Lemma be_emit o k : emit o (bare k) = bare (emit o k). Proof. reflexivity. Qed.
Lemma be_deactivate k i : deactivate_layer (bare k) i = mapr bare (deactivate_layer k i).
Proof.
  unfold deactivate_layer. unfold chk_layer. destruct (Nat.ltb _ _); [|reflexivity]. cbn [bind].
  change (k_ls (bare k)) with (k_ls k). destruct (_ =? 0)%N; rewrite ?be_set_lsi, ?be_indicator, ?be_emit; reflexivity.
Qed.
Lemma be_activate k c i : activate_layer (bare k) c i = mapr bare (activate_layer k c i).
Proof. unfold activate_layer, chk_layer. destruct (Nat.ltb _ _); [|reflexivity]. cbn [bind]. cbv zeta.
  set (l' := mkLst _ _ _ _). set (k2 := set_k_cache _ (set_k_clock (k_clock k + 1)%Z (set_lsi i l' k))).
  change (Ok (emit (OLayer i true (indicator (bare k2))) (bare k2)) = mapr bare (Ok (emit (OLayer i true (indicator k2)) k2))).
  rewrite be_indicator, be_emit. reflexivity. Qed.
Lemma be_drop i : forall n k, drop_oneshots n (bare k) i = mapr bare (drop_oneshots n k i).
Proof.
  induction n; intros k; cbn [drop_oneshots]; [reflexivity|].
  eapply mapr_bind; [apply be_deactivate|]. intros k1 _. cbv zeta. rewrite be_ls, be_set_lsi. apply IHn.
Qed.
Lemma be_clear_layers : forall l k, clear_oneshot_layers l (bare k) = mapr bare (clear_oneshot_layers l k).
Proof.
  induction l as [|i l IH]; intros k; cbn [clear_oneshot_layers]; [reflexivity|].
  eapply mapr_bind; [apply (be_drop i)|]. intros k1 _. apply IH.
Qed.
Lemma be_clear_oneshot k : clear_oneshot (bare k) = mapr bare (clear_oneshot k).
Proof.
  unfold clear_oneshot. rewrite be_nlayers. eapply mapr_bind; [apply be_clear_layers|]. intros k1 _.
  reflexivity.
Qed.
Lemma be_clear_toggled : forall l k, clear_toggled l (bare k) = mapr bare (clear_toggled l k).
Proof.
  induction l as [|i l IH]; intros k; cbn [clear_toggled]; [reflexivity|].
  eapply mapr_bind; [|intros k1 _; apply IH].
  rewrite be_type, be_ls. destruct (_ && _); [|reflexivity]. rewrite be_set_lsi. apply be_deactivate.
Qed.
Lemma be_reset_key k i : reset_key (bare k) i = bare (reset_key k i).
Proof. unfold reset_key. rewrite be_ks. destruct (k_ks k _); reflexivity. Qed.
Lemma be_reset_keys : forall l k, fold_left reset_key l (bare k) = bare (fold_left reset_key l k).
Proof. apply fold_comm, be_reset_key. Qed.
Lemma be_reset k : reset_keystate (bare k) = bare (reset_keystate k).
Proof. exact (be_reset_keys (seq 0 256) k). Qed.
Lemma be_amacro x k : set_k_amacro x (bare k) = bare (set_k_amacro x k). Proof. reflexivity. Qed.
Local Opaque reset_keystate clear_oneshot_layers clear_toggled.
Lemma be_clear k : clear (bare k) = mapr bare (clear k).
Proof.
  unfold clear. eapply mapr_bind; [apply be_clear_oneshot|]. intros k1 _.
  rewrite be_nlayers. eapply mapr_bind; [apply be_clear_toggled|]. intros k2 _.
  cbn [mapr]. rewrite be_amacro, be_reset. reflexivity.
Qed.
Local Opaque clear clear_oneshot.
Lemma be_drop_layout : forall l k, fold_left drop_layout l (bare k) = bare (fold_left drop_layout l k).
Proof.
  apply fold_comm. intros k i.
  unfold drop_layout. rewrite be_type, be_ls, be_set_lsi. destruct (is_layout _); reflexivity.
Qed.
Lemma be_setlayout k i : setlayout (bare k) i = mapr bare (setlayout k i).
Proof.
  unfold setlayout, chk_layer. destruct (Nat.ltb _ _); [|reflexivity]. cbn [bind].
  eapply mapr_bind; [apply be_clear|]. intros k1 _. cbv zeta. rewrite be_nlayers, be_drop_layout.
  generalize (fold_left drop_layout (seq 1 (nlayers k1 - 1)) k1) as k2. intros k2.
  destruct (Nat.eqb i 0); rewrite ?be_ls, ?be_set_lsi, be_indicator, be_emit; reflexivity.
Qed.
Lemma be_cache k : k_cache (bare k) = k_cache k. Proof. reflexivity. Qed.
Lemma be_set_cache c k : set_k_cache c (bare k) = bare (set_k_cache c k). Proof. reflexivity. Qed.
Lemma be_slot c dl k : forall i, swap_slot (bare k) c dl i = swap_slot k c dl i.
Proof. induction c as [|e r IH]; intros i; cbn [swap_slot]; [reflexivity|]. now rewrite IH, be_type. Qed.
Local Opaque activate_layer deactivate_layer setlayout.
Lemma be_swap k dl i : do_swap (bare k) dl i = mapr bare (do_swap k dl i).
Proof.
  unfold do_swap, chk_layer. destruct (Nat.ltb dl _); [|reflexivity]. destruct (Nat.ltb i _); [|reflexivity]. cbn [bind].
  rewrite be_ls, be_cache, be_slot.
  destruct (l_toggled _); [|destruct (negb _); [|destruct (swap_slot _ _ _ _) as [j|]]].
  - eapply mapr_bind; [apply be_deactivate|]. intros k1 _. cbv zeta. rewrite be_ls, be_set_lsi.
    eapply mapr_bind; [apply be_activate|]. intros k3 _. rewrite be_ls, be_set_lsi, be_update. reflexivity.
  - eapply mapr_bind; [apply be_deactivate|]. intros k1 _. cbv zeta. rewrite be_ls, be_set_lsi.
    eapply mapr_bind; [apply be_activate|]. intros k3 _. rewrite be_ls, be_set_lsi, be_update. reflexivity.
  - cbv zeta. rewrite be_set_cache. eapply mapr_bind; [apply be_deactivate|]. intros k1 _.
    eapply mapr_bind; [apply be_activate|]. intros k3 _. rewrite be_update. reflexivity.
  - reflexivity.
Qed.
Local Opaque do_swap.
Lemma be_schedule k t : schedule_timeout (bare k) t = mapr bare (schedule_timeout k t).
Proof. unfold schedule_timeout. change (k_timeouts (bare k)) with (k_timeouts k). destruct (Nat.ltb _ _); reflexivity. Qed.
Lemma be_macro_at k m : macro_at (bare k) m = macro_at k m. Proof. reflexivity. Qed.
Lemma be_pre d pressed dl k : pre_macro d pressed dl (bare k) = mapr bare (pre_macro d pressed dl k).
Proof.
  unfold pre_macro. destruct pressed; [|reflexivity]. destruct d; try reflexivity;
    rewrite be_macro_at; destruct (macro_at k m); cbn [bind mapr]; auto; now rewrite be_macro.
Qed.
Local Opaque pre_macro.

Lemma be_set_simple t k : set_k_last_simple t (bare k) = bare (set_k_last_simple t k). Proof. reflexivity. Qed.
Lemma be_key k c m dl pressed time :
  pd_key (bare k) c m dl pressed (time) = mapr bare (pd_key k c m dl pressed time).
Proof.
  unfold pd_key. eapply mapr_bind with (f := bare).
  - destruct pressed.
    + rewrite be_ks. destruct (k_ks k c); rewrite ?be_send, ?be_update, ?be_send; apply be_clear_oneshot.
    + cbn [mapr]. now rewrite be_send, be_update.
  - intros k1 _. destruct (_ || _); rewrite ?be_set_simple; reflexivity.
Qed.
Lemma be_last_code k : k_last_code (bare k) = k_last_code k. Proof. reflexivity. Qed.
Lemma be_layer k c i pressed : pd_layer (bare k) c i pressed = mapr bare (pd_layer k c i pressed).
Proof.
  unfold pd_layer. eapply mapr_bind with (f := bare).
  - destruct pressed; [apply be_activate|apply be_deactivate].
  - intros k1 _. now rewrite be_last_code, be_update.
Qed.
Lemma be_latch k : k_latch (bare k) = k_latch k. Proof. reflexivity. Qed.
Lemma be_set_latch b k : set_k_latch b (bare k) = bare (set_k_latch b k). Proof. reflexivity. Qed.
Lemma be_set_oneshot t k : set_k_oneshot_to t (bare k) = bare (set_k_oneshot_to t k). Proof. reflexivity. Qed.
Lemma be_oneshot k c i dl pressed time :
  pd_oneshot (bare k) c i dl pressed (time) = mapr bare (pd_oneshot k c i dl pressed time).
Proof.
  unfold pd_oneshot. destruct pressed; [|rewrite be_latch; destruct (k_latch k)].
  - eapply mapr_bind; [apply be_activate|]. intros k1 _. rewrite be_update, be_set_latch. reflexivity.
  - unfold chk_layer. destruct (Nat.ltb _ _); [|reflexivity]. cbn [bind]. cbv zeta. change (c_oneshot_timeout (k_cfg (bare k))) with (c_oneshot_timeout (k_cfg k)). rewrite be_ls, be_set_lsi.
    destruct (_ =? 0)%Z; [reflexivity|]. rewrite be_set_oneshot. apply be_schedule.
  - eapply mapr_bind; [apply be_deactivate|]. intros k1 _. now rewrite be_update.
Qed.
Lemma be_set_repeat r k : set_k_repeat r (bare k) = bare (set_k_repeat r k). Proof. reflexivity. Qed.
Lemma be_set_mto t l a k : set_k_macro_to t (set_k_amacro_layer l (set_k_amacro a (bare k)))
  = bare (set_k_macro_to t (set_k_amacro_layer l (set_k_amacro a k))).
Proof. reflexivity. Qed.
Lemma be_pmacro k m t r dl pressed time :
  pd_macro (bare k) m t r dl pressed (time) = mapr bare (pd_macro k m t r dl pressed time).
Proof.
  unfold pd_macro. destruct pressed; [|reflexivity]. rewrite be_macro_at.
  destruct (macro_at k m) as [mm| | |]; cbn [bind mapr]; auto. rewrite be_set_repeat.
  eapply mapr_bind; [apply be_clear_oneshot|]. intros k1 _. cbv zeta. rewrite be_macro, be_set_mto.
  apply be_schedule.
Qed.
Lemma be_toggle k c i pressed : pd_toggle (bare k) c i pressed = mapr bare (pd_toggle k c i pressed).
Proof.
  unfold pd_toggle. destruct pressed; [|reflexivity]. unfold chk_layer. destruct (Nat.ltb _ _); [|reflexivity].
  cbn [bind]. cbv zeta. rewrite be_ls, be_set_lsi. eapply mapr_bind with (f := bare).
  - destruct (l_toggled (k_ls k i)); [apply be_deactivate|apply be_activate].
  - intros k1 _. rewrite be_update. apply be_clear_oneshot.
Qed.
Lemma be_pswap k i dl mm pressed : pd_swap (bare k) i dl mm pressed = mapr bare (pd_swap k i dl mm pressed).
Proof.
  unfold pd_swap. destruct pressed.
  - eapply mapr_bind; [apply be_swap|]. intros k1 _. destruct mm; cbn [mapr]; now rewrite ?be_macro.
  - cbn [mapr]. f_equal. destruct mm as [[|[[] dt] [|]]|]; rewrite ?be_send, ?be_update; reflexivity.
Qed.
Lemma be_set_pend p k : bare (set_k_pend p k) = set_k_pend p (bare k). Proof. reflexivity. Qed.
Lemma be_pend k : k_pend (bare k) = k_pend k. Proof. reflexivity. Qed.
Lemma be_pending k code dl e b a1 a2 :
  set_pending (bare k) code dl e b a1 a2 = mapr bare (set_pending k code dl e b a1 a2).
Proof.
  unfold set_pending. cbv zeta. rewrite <- be_schedule, be_set_pend, be_pend. reflexivity.
Qed.
Local Opaque pd_key pd_layer pd_oneshot pd_macro pd_toggle pd_swap set_pending.

Lemma be_desc_at k i : desc_at (bare k) i = desc_at k i. Proof. reflexivity. Qed.
Lemma be_cmd_at k i : cmd_at (bare k) i = cmd_at k i. Proof. reflexivity. Qed.
Lemma be_scroll k : k_scroll (bare k) = k_scroll k. Proof. reflexivity. Qed.
Lemma be_set_scroll s k : set_k_scroll s (bare k) = bare (set_k_scroll s k). Proof. reflexivity. Qed.
Lemma be_set_ovl t k : set_k_ovl_start t (bare k) = bare (set_k_ovl_start t k). Proof. reflexivity. Qed.
Lemma be_set_last x k : set_k_last_code x (bare k) = bare (set_k_last_code x k). Proof. reflexivity. Qed.
Lemma be_ovl k : k_ovl_start (bare k) = k_ovl_start k. Proof. reflexivity. Qed.
Lemma be_simple k : k_last_simple (bare k) = k_last_simple k. Proof. reflexivity. Qed.
Lemma be_replace k c d : cache_replace_d (bare k) c d = bare (cache_replace_d k c d).
Proof. unfold cache_replace_d. rewrite be_cache. destruct (cache_find _ _ _); reflexivity. Qed.
Local Opaque bare.
Lemma be_tap k : c_tap_timeout (k_cfg (bare k)) = c_tap_timeout (k_cfg k). Proof. reflexivity. Qed.
Lemma be_mtimeout k : c_macro_timeout (k_cfg (bare k)) = c_macro_timeout (k_cfg k). Proof. reflexivity. Qed.
Lemma be_mrepeat k : c_macro_repeat (k_cfg (bare k)) = c_macro_repeat (k_cfg k). Proof. reflexivity. Qed.
Lemma be_fuel k : pd_fuel (bare k) = pd_fuel k. Proof. reflexivity. Qed.
Local Opaque bare.

Lemma be_pd : forall fuel k code d dl (pressed : bool) time,
  process_descriptor fuel (bare k) code d dl pressed time
  = mapr bare (process_descriptor fuel k code d dl pressed time).
Proof.
  induction fuel as [|fuel IH]; intros k code d dl pressed time; [reflexivity|].
  cbn [process_descriptor]. eapply mapr_bind; [apply be_pre|]. intros k0 _.
  eapply mapr_bind with (f := bare).
  2: { intros k1 _. destruct pressed; rewrite ?be_set_last; reflexivity. }
  destruct d.
  - reflexivity.
  - apply be_key.
  - apply be_oneshot.
  - apply be_oneshot.
  - apply be_layer.
  - apply be_pswap.
  - rewrite be_macro_at. destruct (macro_at k0 m); cbn [bind mapr]; auto. apply be_pswap.
  - apply be_layer.
  - destruct pressed; [apply be_setlayout|reflexivity].
  - destruct pressed; [apply be_clear|reflexivity].
  - destruct pressed; [|reflexivity]. rewrite be_macro_at. destruct (macro_at k0 m); cbn [bind mapr]; auto.
    eapply mapr_bind; [apply be_clear|]. intros k1 _. now rewrite be_macro.
  - rewrite be_desc_at. destruct (desc_at k0 a) as [ac| | |]; cbn [bind mapr]; auto.
    destruct pressed.
    + rewrite be_set_ovl. eapply mapr_bind; [apply be_activate|]. intros k1 _. now rewrite be_update.
    + eapply mapr_bind; [apply be_deactivate|]. intros k1 _. cbv zeta. rewrite be_update.
      generalize (update_mods false k1 None 0) as k2. intros k2.
      rewrite be_last_code, be_tap, be_ovl.
      destruct (_ && _); [|reflexivity].
      assert (G : (k3 <- process_descriptor fuel (bare k2) code ac dl true time;;
                   process_descriptor fuel k3 code ac dl false time)
                  = mapr bare (k3 <- process_descriptor fuel k2 code ac dl true time;;
                             process_descriptor fuel k3 code ac dl false time)).
      { eapply mapr_bind; [apply IH|]. intros k3 _. apply IH. }
      destruct ac; try exact G. rewrite be_macro_at. destruct (macro_at k2 m); cbn [bind mapr]; auto. now rewrite be_macro.
  - rewrite be_desc_at. destruct pressed; [|reflexivity]. destruct (desc_at k0 a) as [ac| | |]; cbn [bind mapr]; auto.
    apply be_pending.
  - rewrite be_desc_at. destruct pressed; [|reflexivity]. destruct (desc_at k0 a) as [ac| | |]; cbn [bind mapr]; auto.
    apply be_pending.
  - destruct pressed; [|reflexivity]. rewrite be_desc_at, be_simple.
    destruct (desc_at k0 _) as [ac| | |]; cbn [bind mapr]; auto.
    eapply mapr_bind; [apply IH|]. intros k1 _. now rewrite be_replace.
  - apply be_toggle.
  - apply be_toggle.
  - rewrite be_mtimeout, be_mrepeat. apply be_pmacro.
  - apply be_pmacro.
  - destruct pressed; [|reflexivity]. rewrite be_cmd_at. destruct (cmd_at k0 c) as [cm| | |]; cbn [bind mapr]; auto.
    rewrite be_emit. eapply mapr_bind; [apply be_clear_oneshot|]. intros k1 _. now rewrite be_update.
  - destruct pressed; [|reflexivity]. rewrite !be_desc_at.
    destruct (desc_at k0 a1) as [x1| | |]; cbn [bind mapr]; auto. destruct (desc_at k0 a2) as [x2| | |]; cbn [bind mapr]; auto.
    apply be_pending.
  - rewrite be_scroll, be_set_scroll. reflexivity.
  - rewrite be_scroll, be_set_scroll. reflexivity.
Qed.
Lemma be_do k code d dl (pressed : bool) time :
  do_desc (bare k) code d dl pressed time = mapr bare (do_desc k code d dl pressed time).
Proof. unfold do_desc. rewrite be_fuel. apply be_pd. Qed.

(* ---- the stages of process_event ------------------------------------------------------- *)
Local Transparent bare.
Lemma be_oto k : k_oneshot_to (bare k) = k_oneshot_to k. Proof. reflexivity. Qed.
Lemma be_amacro_of k : k_amacro (bare k) = k_amacro k. Proof. reflexivity. Qed.
Lemma be_mto k : k_macro_to (bare k) = k_macro_to k. Proof. reflexivity. Qed.
Lemma be_alayer k : k_amacro_layer (bare k) = k_amacro_layer k. Proof. reflexivity. Qed.
Lemma be_repeat k : k_repeat (bare k) = k_repeat k. Proof. reflexivity. Qed.
Lemma be_set_mto1 t k : set_k_macro_to t (bare k) = bare (set_k_macro_to t k). Proof. reflexivity. Qed.
Lemma be_cache_get k c : cache_get (bare k) c = cache_get k c. Proof. reflexivity. Qed.
Lemma be_cache_nth k i : cache_nth (bare k) i = cache_nth k i. Proof. reflexivity. Qed.
Lemma be_cache_set k c e : cache_set (bare k) c e = option_map bare (cache_set k c e).
Proof. unfold cache_set. change (k_cache (bare k)) with (k_cache k). destruct (cache_slot _ _ _ _); [|reflexivity]. destruct e; reflexivity. Qed.
Lemma be_achords k : k_achords (bare k) = k_achords k. Proof. reflexivity. Qed.
Lemma be_set_achords x k : set_k_achords x (bare k) = bare (set_k_achords x k). Proof. reflexivity. Qed.
Lemma be_timeouts k : k_timeouts (bare k) = k_timeouts k. Proof. reflexivity. Qed.
Lemma be_set_timeouts x k : set_k_timeouts x (bare k) = bare (set_k_timeouts x k). Proof. reflexivity. Qed.
Local Opaque bare.
Lemma be_lookup k code : lookup_descriptor (bare k) code = lookup_descriptor k code.
Proof.
  unfold lookup_descriptor. rewrite be_achords, be_nlayers. destruct (is_chord_code code); [reflexivity|].
  rewrite (fold_ext (lookup_step (bare k) code) (lookup_step k code)).
  2: { intros [[? ?] ?] i. unfold lookup_step. now rewrite be_is_active, be_keymap, be_ls. }
  destruct (fold_left (lookup_step k code) _ _) as [[? d1] dl1].
  rewrite (fold_ext (composite_step (bare k) code) (composite_step k code)); [reflexivity|].
  intros [[? ?] ?] i. unfold composite_step. cbv zeta. rewrite be_type, be_const, be_keymap.
  reflexivity.
Qed.
Lemma be_expire k time : expire_oneshot (bare k) time = mapr bare (expire_oneshot k time).
Proof.
  unfold expire_oneshot. rewrite be_oto. destruct (_ && _); [|reflexivity].
  eapply mapr_bind; [apply be_clear_oneshot|]. intros k1 _. cbn [mapr]. now rewrite be_update.
Qed.
Lemma be_run_macro k code time : run_active_macro (bare k) code time = mapr bare (run_active_macro k code time).
Proof.
  unfold run_active_macro. rewrite be_amacro_of. destruct (k_amacro k) as [m|]; [|reflexivity].
  destruct (negb _); [cbn [mapr]; now rewrite be_amacro, be_update|].
  rewrite be_mto. destruct (_ <=? _)%Z; [|reflexivity].
  rewrite be_macro_at. destruct (macro_at k m) as [mm| | |]; cbn [bind mapr]; auto. cbv zeta.
  rewrite be_alayer, be_macro, be_repeat, be_set_mto1. apply be_schedule.
Qed.
Lemma be_handle_key k code pressed time : handle_key (bare k) code pressed time = mapr bare (handle_key k code pressed time).
Proof.
  unfold handle_key. destruct (code =? 0)%N; [reflexivity|]. rewrite be_cache_get. destruct pressed.
  - destruct (cache_get k code); [reflexivity|]. rewrite be_lookup.
    destruct (lookup_descriptor k code) as [x dl]. rewrite be_cache_set.
    destruct (cache_set k code _) as [k1|]; [|reflexivity]. apply be_do.
  - destruct (cache_get k code) as [i|]; [|reflexivity]. rewrite be_cache_nth, be_cache_set. cbv zeta.
    destruct (cache_set k code None) as [k1|]; [|reflexivity]. apply be_do.
Qed.
Lemma be_rest k code pressed time : rest_step (bare k) code pressed time = mapr bare (rest_step k code pressed time).
Proof.
  unfold rest_step. eapply mapr_bind; [apply be_expire|]. intros k1 _.
  eapply mapr_bind; [apply be_run_macro|]. intros k2 _. apply be_handle_key.
Qed.
Lemma be_decide k p a time : decide (bare k) p a time = mapr bare (decide k p a time).
Proof.
  unfold decide. cbv zeta. rewrite <- be_set_pend, be_cache_set.
  destruct (cache_set (set_k_pend _ k) _ _) as [k2|]; cbn [option_map]; apply be_do.
Qed.
Definition be_pp (r : kbd * pplan) : kbd * pplan := (bare (fst r), snd r).
Lemma be_pending_plan k code pressed time :
  pending_plan (bare k) code pressed time = mapr be_pp (pending_plan k code pressed time).
Proof.
  unfold pending_plan. cbv zeta. rewrite be_pend.
  destruct (_ =? 0)%N; [reflexivity|]. destruct (_ && _); [reflexivity|]. destruct (_ && _); [reflexivity|].
  destruct (has_op _).
  - eapply mapr_bind; [apply be_decide|]. intros k3 _. reflexivity.
  - cbn [mapr]. now rewrite <- be_set_pend.
Qed.
Lemma be_calc k time : calculate_main_loop_timeout (bare k) time
  = (bare (fst (calculate_main_loop_timeout k time)), snd (calculate_main_loop_timeout k time)).
Proof. unfold calculate_main_loop_timeout. cbv zeta. now rewrite be_timeouts, be_set_timeouts. Qed.
Lemma be_chord_up k code i : chord_up (bare k) code i = (bare (fst (chord_up k code i)), snd (chord_up k code i)).
Proof. unfold chord_up. cbv zeta. now rewrite be_achords, be_set_achords. Qed.
End Bare.

(* ---- in step with a keyboard that has no chords ------------------------------------------ *)
Definition agree {A A'} (R : A' -> A -> Prop) (r' : res A') (r : res A) : Prop :=
  match r, r' with
  | Ok a, Ok a' => R a' a
  | Crash c, Crash c' => c' = c
  | UB, UB | NoFuel, NoFuel => True
  | _, _ => False
  end.
Lemma agree_bind {A A' B B'} (R : A' -> A -> Prop) (S : B' -> B -> Prop) e' e f' f :
  agree R e' e -> (forall a' a, e = Ok a -> R a' a -> agree S (f' a') (f a)) -> agree S (bind e' f') (bind e f).
Proof. destruct e, e'; cbn [agree bind]; auto; try contradiction. Qed.
Lemma agree_map {A A'} (R : A' -> A -> Prop) (f : A -> A') r : (forall a, r = Ok a -> R (f a) a) -> agree R (mapr f r) r.
Proof. destruct r; cbn [mapr agree]; auto. Qed.

Lemma enqueue_one k code pressed time :
  h_queue (k_chord k) = [] -> exists h, enqueue_chord_event k code pressed time = Ok (set_k_chord h k)
    /\ h_state h = h_state (k_chord k).
Proof.
  intros E. unfold enqueue_chord_event. destruct (code =? 0)%N.
  - exists (k_chord k). split; [destruct k|]; reflexivity.
  - rewrite E. eexists. split; reflexivity.
Qed.
Lemma check_bare q k : check_chord_match (bare q k) = (CC0, bare q k).
Proof.
  unfold check_chord_match.
  assert (G : forall l acc, fold_left (check_layer1 (bare q k)) l acc = acc).
  { induction l as [|i l IH]; intros acc; cbn [fold_left]; [reflexivity|]. rewrite IH. unfold check_layer1.
    rewrite be_layer_at. destruct (is_active _ _); reflexivity. }
  now rewrite G.
Qed.

Lemma pending_chord k code pressed time k1 pl : pending_plan k code pressed time = Ok (k1, pl) -> k_chord k1 = k_chord k.
Proof.
  unfold pending_plan. cbv zeta. destruct (_ =? 0)%N; [intros E; apply Ok_inj, pair_equal_spec in E as [<- _]; reflexivity|].
  destruct (_ && _); [discriminate|].
  destruct (_ && _); [intros E; apply Ok_inj, pair_equal_spec in E as [<- _]; reflexivity|].
  destruct (has_op _); intros E.
  - bstep E k3 E3. apply Ok_inj, pair_equal_spec in E as [<- _]. apply decide_queue in E3. apply E3.
  - apply Ok_inj, pair_equal_spec in E as [<- _]. reflexivity.
Qed.

Section InStep.
Variable h : chst.
Hypothesis h_busy : h_state h = CsResolving.
Definition instep (k' k : kbd) : Prop := k_chord k = h /\ exists q, h_state q = CsInactive /\ k' = bare q k.
Definition instepd (r' r : kbd * Z) : Prop := instep (fst r') (fst r) /\ snd r' = snd r.
Definition instepp (r' r : kbd * cplan) : Prop := instep (fst r') (fst r) /\ snd r' = snd r /\ forall a b, snd r <> PlanReplay a b.
Definition instepb (r' r : kbd * bool) : Prop := instep (fst r') (fst r) /\ snd r' = snd r.

Lemma instep_chord k' k code pressed time : instep k' k ->
  agree instepp (chord_plan k' code pressed time) (chord_plan k code pressed time).
Proof.
  intros [Hk [q [Hq ->]]]. unfold chord_plan. cbv zeta. rewrite be_achords.
  destruct (if negb (code =? 0)%N && negb pressed then chord_of_key (k_achords k) code 0 else None) as [i|].
  { rewrite be_chord_up. destruct (chord_up k code i) as [k1 b] eqn:E. cbn [fst snd agree].
    split; [split; [|now exists q]|].
    - unfold chord_up in E. apply pair_equal_spec in E as [<- _]. exact Hk.
    - split; [reflexivity|]. intros a c. destruct b; discriminate. }
  rewrite Hk, h_busy. change (k_chord (bare q k)) with q. rewrite Hq.
  set (k0 := set_k_chord _ (bare q k)).
  destruct (enqueue_one k0 code pressed time eq_refl) as [h1 [E1 E2]]. rewrite E1. cbn [bind].
  change (set_k_chord h1 k0) with (bare h1 k). rewrite check_bare. cbn [agree].
  split; [split; [exact Hk|]|split; [reflexivity|discriminate]].
  exists h1. split; [rewrite E2; exact Hq|reflexivity].
Qed.
Lemma instep_calc k' k time : instep k' k ->
  agree instepd (Ok (calculate_main_loop_timeout k' time)) (Ok (calculate_main_loop_timeout k time)).
Proof.
  intros [Hk [q [Hq ->]]]. cbn [agree]. rewrite be_calc. split; [split; [exact Hk|now exists q]|reflexivity].
Qed.
Lemma instep_event pe : (forall k' k code pressed time, instep k' k ->
    agree instepd (pe k' code pressed time) (pe k code pressed time)) ->
  forall fuel evs k' k t ts, instep k' k -> agree instepd (pe_loop pe fuel k' evs t ts) (pe_loop pe fuel k evs t ts).
Proof.
  intros Hpe. induction fuel as [|fuel IH]; intros evs k' k t ts H; destruct evs as [|ev rest]; cbn [pe_loop].
  1, 3: split; [exact H|reflexivity].
  - exact Logic.I.
  - destruct (_ && _).
    + eapply agree_bind; [apply Hpe, H|]. intros [k1' t'] [k1 t1] _ [H1 H2]. cbn [fst snd] in *. subst t'. apply IH, H1.
    + eapply agree_bind; [apply Hpe, H|]. intros [k1' t'] [k1 t1] _ [H1 H2]. cbn [fst snd] in *. subst t'. apply IH, H1.
Qed.
Lemma instep_pe : forall fuel k' k code pressed time, instep k' k ->
  agree instepd (process_event fuel k' code pressed time) (process_event fuel k code pressed time).
Proof.
  induction fuel as [|fuel IH]; intros k' k code pressed time H; [exact Logic.I|].
  cbn [process_event]. rewrite !process_event_plan. pose proof (instep_event _ IH fuel) as HL.
  eapply agree_bind with (R := instepb).
  { eapply agree_bind; [apply instep_chord, H|]. intros [k1' pl'] [k1 pl] _ [H1 [H2 H3]]. cbn [fst snd] in *. subst pl'.
    destruct pl as [| |i|a b]; cbn [run_plan].
    - split; [exact H1|reflexivity].
    - split; [exact H1|reflexivity].
    - eapply agree_bind; [apply IH, H1|]. intros [k2' t'] [k2 t2] _ [H4 H5]. split; [exact H4|reflexivity].
    - now destruct (H3 a b). }
  intros [k1' b'] [k1 b] _ [H1 H2]. cbn [fst snd] in *. subst b'. destruct b; [now apply instep_calc|].
  unfold after_chord. destruct H1 as [Hk [q [Hq ->]]].
  eapply agree_bind with (R := instepb).
  { eapply agree_bind with (R := fun r' r => r' = be_pp q r /\ k_chord (fst r) = h).
    - rewrite be_pending_plan. apply agree_map. intros [k2 pl] E. split; [reflexivity|].
      apply pending_chord in E. cbn [fst]. now rewrite E.
    - intros [k2' pl'] [k2 pl] _ [E1 E2]. unfold be_pp in E1. apply pair_equal_spec in E1 as [-> ->]. cbn [fst snd] in *.
      assert (H2 : instep (bare q k2) k2) by (split; [exact E2|now exists q]).
      destruct pl; cbn [run_pplan].
      + split; [exact H2|reflexivity].
      + split; [exact H2|reflexivity].
      + eapply agree_bind; [apply HL, H2|]. intros [k3' t'] [k3 t3] _ [H4 H5]. split; [exact H4|reflexivity]. }
  intros [k2' b'] [k2 b] _ [H3 H2]. cbn [fst snd] in *. subst b'. destruct H3 as [Hk2 [q2 [Hq2 ->]]].
  destruct b; [apply instep_calc; split; [exact Hk2|now exists q2]|].
  rewrite be_rest. eapply agree_bind with (R := instep).
  - apply agree_map. intros k3 E. apply rest_frame in E as [_ [_ [E _]]]. split; [now rewrite E|now exists q2].
  - intros k3' k3 _ H3. now apply instep_calc.
Qed.
Lemma instep_events fuel k' k evs : instep k' k ->
  agree instepd (kbd_process_events fuel k' evs) (kbd_process_events fuel k evs).
Proof. apply instep_event. apply instep_pe. Qed.
End InStep.
