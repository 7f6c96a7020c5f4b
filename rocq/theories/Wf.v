(* Well-formedness of the engine state is preserved and excludes undefined
   behaviour; every action decomposes into steps that respect layer kinds. *)
From Verif Require Import Base Lib Keys Types MacroExec Kbd Steps SpecWf ModsProofs Engine.

Lemma ok_desc_mono c nd nm nc nd' nm' nc' d :
  (nd <= nd')%N -> (nm <= nm')%N -> (nc <= nc')%N ->
  ok_desc c nd nm nc d -> ok_desc c nd' nm' nc' d.
Proof. intros H1 H2 H3. destruct d; cbn; intuition lia. Qed.

(* what the state needs of an action *)
Definition sdesc (c : config) (d : desc) : Prop := ok_desc c 1024 256 64 d.

Definition engine_crash (c : crash) : Prop :=
  match c with
  | CLayerInactive | CChordQueue | CTimeouts | CActiveChords | CPendingQueue => True
  | _ => False
  end.

(* a chord that may be resolved: it exists and is not longer than the queue *)
Definition match_ok (c : config) (q : list kev) (m : nat * nat) : Prop :=
  fst m < length (c_layers c)
  /\ snd m < length (ly_chords (nth (fst m) (c_layers c) zero_layer))
  /\ length (ch_keys (nth (snd m) (ly_chords (nth (fst m) (c_layers c) zero_layer)) zero_chord))
     <= length q.

Definition chord_ok (c : config) (h : chst) : Prop :=
  match h_state h with
  | CsResolving | CsInactive => True
  | CsDisambiguation =>
      h_mlayer h < length (c_layers c) /\ forall m, h_match h = Some m -> match_ok c (h_queue h) m
  | CsHold =>
      h_mlayer h < length (c_layers c) /\ exists m, h_match h = Some m /\ match_ok c (h_queue h) m
  end.

Definition ce_ok (c : config) (e : centry) : Prop := sdesc c (ce_d e) /\ ce_dl e < length (c_layers c).

Record wfk (k : kbd) : Prop := {
  wk_cfg : wf_config (k_cfg k);
  wk_cache_len : length (k_cache k) = 16;
  wk_cache : Forall (ce_ok (k_cfg k)) (k_cache k);
  wk_ac_len : length (k_achords k) = 3;
  wk_ac : Forall (fun a => sdesc (k_cfg k) (ch_d (ac_chord a))
                           /\ ac_layer a < length (c_layers (k_cfg k))) (k_achords k);
  wk_pend : sdesc (k_cfg k) (p_a1 (k_pend k)) /\ sdesc (k_cfg k) (p_a2 (k_pend k))
            /\ p_dl (k_pend k) < length (c_layers (k_cfg k));
  wk_chord : chord_ok (k_cfg k) (k_chord k);
  wk_mlayer : h_mlayer (k_chord k) < length (c_layers (k_cfg k));
  wk_amacro : forall m, k_amacro k = Some m -> (N.of_nat m < 256)%N;
  wk_flags : forall i, l_toggled (k_ls k i) = true \/ l_depth (k_ls k i) <> 0%N -> layer_ref (k_cfg k) i;
  wk_scroll : i16 (s_sens (k_scroll k)) }.

(* the motion not yet turned into ticks *)
Definition motion (k : kbd) : Z * Z := (s_x (k_scroll k), s_y (k_scroll k)).

(* ---- layer-respecting steps ---------------------------------------------------- *)
Definition no_layer (o : oev) : bool := match o with OLayer _ _ _ => false | _ => true end.

Definition to_layout (k : kbd) (idx : nat) : kbd :=
  let k2 := fold_left drop_layout (seq 1 (nlayers k - 1)) k in
  let k3 := if Nat.eqb idx 0 then k2
            else set_lsi idx (set_l_active 1%N (set_l_time 1%Z (k_ls k2 idx))) k2 in
  emit (OLayer idx true (indicator k3)) k3.

Inductive wprim : kbd -> kbd -> Prop :=
| w_keys k l s o : forallb no_layer o = true -> wprim k (kk l s (o ++ k_out k) k)
| w_int k k' : k_cfg k' = k_cfg k -> k_orig k' = k_orig k -> k_ls k' = k_ls k ->
    k_clock k' = k_clock k -> k_out k' = k_out k -> k_ks k' = k_ks k -> motion k' = motion k -> wprim k k'
| w_act k code i k' : layer_ref (k_cfg k) i -> activate_layer k code i = Ok k' -> wprim k k'
| w_deact k i k' : layer_ref (k_cfg k) i -> deactivate_layer k i = Ok k' -> wprim k k'
| w_flags k i l : layer_ref (k_cfg k) i -> l_active l = l_active (k_ls k i) ->
    l_time l = l_time (k_ls k i) -> wprim k (set_lsi i l k)
| w_layout k idx : layout_ref (k_cfg k) idx -> wprim k (to_layout k idx).

Inductive wsteps : kbd -> kbd -> Prop :=
| ws_refl k : wsteps k k
| ws_step k k1 k2 : wprim k k1 -> wsteps k1 k2 -> wsteps k k2.
Lemma wsteps_trans a b c : wsteps a b -> wsteps b c -> wsteps a c.
Proof. induction 1; auto. intros. econstructor; eauto. Qed.
Lemma wsteps_one a b : wprim a b -> wsteps a b.
Proof. intros. econstructor; eauto. constructor. Qed.
Lemma wsteps_inv (P : kbd -> Prop) :
  (forall k k', wprim k k' -> P k -> P k') -> forall k k', wsteps k k' -> P k -> P k'.
Proof. intros H k k' Hs. induction Hs; eauto. Qed.
Lemma wsteps_int k k' : k_cfg k' = k_cfg k -> k_orig k' = k_orig k -> k_ls k' = k_ls k ->
    k_clock k' = k_clock k -> k_out k' = k_out k -> k_ks k' = k_ks k -> motion k' = motion k -> wsteps k k'.
Proof. intros. apply wsteps_one. now apply w_int. Qed.

(* ---- what a step may change, apart from the layer state -------------------------- *)
(* the result type of every action: state still well formed, and the steps taken *)
Definition stays (k k' : kbd) : Prop := wfk k' /\ wsteps k k'.

Lemma stays_trans a b c : stays a b -> stays b c -> stays a c.
Proof. intros [_ H] [H1 H2]. split; auto. eapply wsteps_trans; eauto. Qed.
Lemma stays_refl k : wfk k -> stays k k.
Proof. split; auto. constructor. Qed.

Notation sf := (safe engine_crash).
Lemma sf_trans k e (f : kbd -> res kbd) :
  sf (stays k) e -> (forall k1, stays k k1 -> sf (stays k1) (f k1)) -> sf (stays k) (bind e f).
Proof.
  intros H1 H2. eapply safe_bind; [exact H1|]. intros k1 Hk1.
  eapply safe_weak; [apply H2; auto|]. intros k2. now apply stays_trans.
Qed.
Lemma sf_stays_cfg k (P : config -> Prop) k1 : stays k k1 -> P (k_cfg k) -> P (k_cfg k1).
Proof.
  intros [_ H] HP. revert HP. apply (wsteps_inv (fun k => P (k_cfg k))) with (k := k); auto.
  clear. intros k k' Hp HP. destruct Hp; auto; try congruence.
  - unfold activate_layer in H0. bauto H0. exact HP.
  - unfold deactivate_layer in H0. bauto H0. exact HP.
  - unfold to_layout. cbn [emit k_cfg set_k_out].
    assert (G : forall l k, k_cfg (fold_left drop_layout l k) = k_cfg k).
    { clear. induction l; cbn; intros; auto. rewrite IHl. unfold drop_layout. now destruct (is_layout _). }
    destruct (Nat.eqb idx 0); cbn [k_cfg set_lsi set_k_ls]; now rewrite G.
Qed.
Lemma stays_cfg k k1 : stays k k1 -> k_cfg k1 = k_cfg k.
Proof. intros H. exact (sf_stays_cfg k (fun c => c = k_cfg k) k1 H eq_refl). Qed.

(* a change that touches none of the fields well-formedness looks at *)
Definition same_wf (k k' : kbd) : Prop :=
  k_cfg k' = k_cfg k /\ k_cache k' = k_cache k /\ k_achords k' = k_achords k
  /\ k_pend k' = k_pend k /\ k_chord k' = k_chord k /\ k_amacro k' = k_amacro k /\ k_scroll k' = k_scroll k.
Lemma same_wf_wfk k k' : same_wf k k' ->
  (forall i, l_toggled (k_ls k' i) = true \/ l_depth (k_ls k' i) <> 0%N -> layer_ref (k_cfg k) i) ->
  wfk k -> wfk k'.
Proof.
  intros [H1 [H2 [H3 [H4 [H5 [H6 H7]]]]]] Hf [W1 W2 W3 W4 W5 W6 W7 W7' W8 W9 W10].
  constructor; rewrite ?H1, ?H2, ?H3, ?H4, ?H5, ?H6, ?H7; auto.
Qed.
Lemma same_wf_ls k k' : same_wf k k' -> k_ls k' = k_ls k -> wfk k -> wfk k'.
Proof. intros H E W. apply (same_wf_wfk k k' H); auto. rewrite E. apply W. Qed.

Lemma keys_stays k l s o : wfk k -> forallb no_layer o = true -> stays k (kk l s (o ++ k_out k) k).
Proof.
  intros W Ho. split.
  - apply (same_wf_ls k); auto. repeat split.
  - apply wsteps_one. now apply w_keys.
Qed.

(* keys_only with a trace that grows by key events *)
Definition keys_grow (k k' : kbd) : Prop :=
  exists l s o, k' = kk l s (o ++ k_out k) k /\ forallb no_layer o = true.
Lemma keys_grow_refl k : keys_grow k k.
Proof. exists (k_last_out k), (k_ks k), []. split; auto. destruct k; reflexivity. Qed.
Lemma keys_grow_trans a b c : keys_grow a b -> keys_grow b c -> keys_grow a c.
Proof.
  intros [l [s [o [-> H]]]] [l' [s' [o' [-> H']]]]. exists l', s', (o' ++ o).
  rewrite forallb_app, H, H', <- app_assoc. auto.
Qed.
Lemma send_key_grow k c p : keys_grow k (send_key k c p).
Proof.
  unfold send_key. destruct (_ || _); [apply keys_grow_refl|].
  destruct p; cbn [k_ks set_k_last_out];
    match goal with |- keys_grow _ (if ?b then _ else _) => destruct b end;
    try apply keys_grow_refl.
  - exists c, (k_ks k), []. split; [destruct k; reflexivity|reflexivity].
  - exists c, (fupd (k_ks k) c true), [OKey c true]. split; [destruct k; reflexivity|reflexivity].
  - exists (k_last_out k), (fupd (k_ks k) c false), [OKey c false].
    split; [destruct k; reflexivity|reflexivity].
Qed.
Lemma keys_grow_fold {B} (f : kbd -> B -> kbd) l k :
  (forall k b, keys_grow k (f k b)) -> keys_grow k (fold_left f l k).
Proof.
  intros H. revert k; induction l; cbn; intros; [apply keys_grow_refl|].
  eapply keys_grow_trans; eauto.
Qed.
Lemma clear_mod_grow inh k c : keys_grow k (clear_mod inh k c).
Proof.
  unfold clear_mod. destruct (_ && _); [|apply send_key_grow].
  eapply keys_grow_trans; [apply send_key_grow|].
  eapply keys_grow_trans; [apply send_key_grow|]. apply send_key_grow.
Qed.
Lemma update_mods_grow inh k e m : keys_grow k (update_mods inh k e m).
Proof.
  apply keys_grow_fold. intros k0 [mask c]. unfold set_mod1.
  destruct (hasmod _ _), (k_ks k0 c);
    auto using keys_grow_refl, send_key_grow, clear_mod_grow.
Qed.
Lemma mexec_no_layer t m : forall h, forallb no_layer (mexec t h m) = true.
Proof.
  induction m as [|e m IH]; cbn [mexec]; intros h; auto.
  rewrite !forallb_app, IH, andb_true_r. apply andb_true_iff. split.
  - apply forallb_forall. intros o Ho. destruct (m_type e).
    + unfold mexec_keyseq in Ho. rewrite !in_app_iff in Ho.
      destruct Ho as [Ho|[Ho|[Ho|Ho]]].
      * apply in_map_iff in Ho as [[? ?] [<- _]]. reflexivity.
      * destruct (_ && _); [|contradiction]. destruct Ho as [<-|[]]; reflexivity.
      * destruct Ho as [<-|[<-|[]]]; reflexivity.
      * apply in_map_iff in Ho as [[? ?] [<- _]]. reflexivity.
    + destruct Ho as [<-|[]]; reflexivity.
    + destruct h as [es|]; [|contradiction]. apply in_map_iff in Ho as [? [<- _]]. reflexivity.
    + apply in_flat_map in Ho as [c [_ Ho]]. destruct Ho as [<-|[<-|[]]]; reflexivity.
    + destruct Ho as [<-|[]]; reflexivity.
  - destruct (negb _); auto.
Qed.
Lemma execute_macro_grow k dl m : keys_grow k (execute_macro k dl m).
Proof.
  unfold execute_macro.
  assert (G : keys_grow k (emits (macro_execute m (c_macro_seq_timeout (k_cfg k)))
                             (update_mods false k (Some dl) 0))).
  { apply keys_grow_trans with (update_mods false k (Some dl) 0%N); [apply update_mods_grow|].
    generalize (update_mods false k (Some dl) 0%N); intros k0.
    exists (k_last_out k0), (k_ks k0), (rev (macro_execute m (c_macro_seq_timeout (k_cfg k)))).
    split; [destruct k0; reflexivity|].
    apply forallb_forall. intros x Hx. apply in_rev in Hx.
    pose proof (mexec_no_layer (c_macro_seq_timeout (k_cfg k)) m None) as Hn.
    rewrite forallb_forall in Hn. now apply Hn. }
  destruct m as [|[[] d] [|? ?]]; auto.
  eapply keys_grow_trans; [apply update_mods_grow|].
  eapply keys_grow_trans; [apply send_key_grow|]. apply send_key_grow.
Qed.
Lemma reset_keystate_grow k : keys_grow k (reset_keystate k).
Proof.
  apply keys_grow_fold. intros k0 i. unfold reset_key. destruct (k_ks k0 _); [|apply keys_grow_refl].
  exists (k_last_out k0), (fupd (k_ks k0) (N.of_nat i) false), [OKey (N.of_nat i) false].
  split; [destruct k0; reflexivity|reflexivity].
Qed.
Lemma grow_stays k k' : wfk k -> keys_grow k k' -> stays k k'.
Proof. intros W [l [s [o [-> Ho]]]]. now apply keys_stays. Qed.
Lemma um_stays inh k e m : wfk k -> stays k (update_mods inh k e m).
Proof. intros. apply grow_stays; auto. apply update_mods_grow. Qed.

(* internal changes *)
Lemma int_stays k k' : wfk k -> same_wf k k' ->
  k_orig k' = k_orig k -> k_ls k' = k_ls k ->
  k_clock k' = k_clock k -> k_out k' = k_out k -> k_ks k' = k_ks k -> stays k k'.
Proof.
  intros W H1 H2 H3 H4 H5 H6. split.
  - eapply same_wf_ls; eauto.
  - apply wsteps_int; auto; [apply H1|]. unfold motion. destruct H1 as (_ & _ & _ & _ & _ & _ & ->). reflexivity.
Qed.
Ltac ints := apply int_stays; [assumption|repeat split|reflexivity..].

(* ---- layers --------------------------------------------------------------------- *)
Lemma layer_ref_max k i : wfk k -> layer_ref (k_cfg k) i -> chk_layer i = Ok tt.
Proof.
  intros W [H _]. unfold chk_layer, MAX_LAYERS. pose proof (wf_layers_max _ (wk_cfg _ W)).
  destruct (Nat.ltb_spec i 32); auto. lia.
Qed.
Lemma set_ce_layer_ok (P : centry -> Prop) c code i :
  (forall e l, P e -> P (mkCe (ce_code e) (ce_d e) (ce_dl e) l)) ->
  Forall P c -> Forall P (set_ce_layer c code i) /\ length (set_ce_layer c code i) = length c.
Proof.
  intros HP H. unfold set_ce_layer. destruct (cache_find c code 0) as [j|] eqn:E; auto.
  rewrite upd_length. split; auto. apply Forall_upd; auto. apply HP.
  assert (j < length c).
  { assert (G : forall c i j, cache_find c code i = Some j -> i <= j < i + length c).
    { clear. induction c as [|e r IH]; cbn [cache_find length]; intros i j H; [discriminate|].
      destruct (_ =? _)%N; [injection H as <-; lia|]. apply IH in H. lia. }
    apply G in E. lia. }
  rewrite Forall_forall in H. apply H. now apply nth_In.
Qed.
Lemma activate_stays k code i : wfk k -> layer_ref (k_cfg k) i ->
  sf (stays k) (activate_layer k code i).
Proof.
  intros W Hi. destruct (activate_layer k code i) eqn:E;
    unfold activate_layer in E; rewrite (layer_ref_max k i W Hi) in E; cbn [bind] in E; try discriminate E.
  cbn [safe]. split.
  - injection E as <-. destruct W as [W1 W2 W3 W4 W5 W6 W7 W7' W8 W9].
    destruct (set_ce_layer_ok (ce_ok (k_cfg k)) (k_cache k) code i (fun e l H => H) W3) as [Hc1 Hc2].
    constructor; cbn [emit set_k_out set_k_cache set_k_clock set_lsi set_k_ls k_cfg k_cache k_achords k_pend
        k_chord k_amacro k_ls]; auto.
    + now rewrite Hc2.
    + intros j. unfold nupd. destruct (Nat.eqb_spec j i) as [->|]; auto.
  - apply wsteps_one. eapply w_act; eauto. unfold activate_layer.
    rewrite (layer_ref_max k i W Hi). exact E.
Qed.
Lemma deactivate_stays k i : wfk k -> layer_ref (k_cfg k) i ->
  sf (stays k) (deactivate_layer k i).
Proof.
  intros W Hi. destruct (deactivate_layer k i) eqn:E;
    pose proof E as E'; unfold deactivate_layer in E; rewrite (layer_ref_max k i W Hi) in E; cbn [bind] in E.
  - destruct (_ =? 0)%N; [discriminate|]. injection E as <-. cbn [safe]. split.
    + apply (same_wf_wfk k); auto; [repeat split|].
      intros j. cbn [emit set_k_out set_lsi set_k_ls k_ls]. unfold nupd.
      destruct (Nat.eqb_spec j i) as [->|]; auto. apply W.
    + apply wsteps_one. eapply w_deact; eauto.
  - destruct (_ =? 0)%N; [injection E as <-|discriminate]. exact Logic.I.
  - destruct (_ =? 0)%N; discriminate.
  - destruct (_ =? 0)%N; discriminate.
Qed.
Lemma flags_stays k i l : wfk k -> layer_ref (k_cfg k) i ->
  l_active l = l_active (k_ls k i) -> l_time l = l_time (k_ls k i) -> stays k (set_lsi i l k).
Proof.
  intros W Hi H1 H2. split.
  - apply (same_wf_wfk k); auto; [repeat split|].
    intros j. cbn [set_lsi set_k_ls k_ls]. unfold nupd.
    destruct (Nat.eqb_spec j i) as [->|]; auto. apply W.
  - apply wsteps_one. now apply w_flags.
Qed.

Lemma drop_oneshots_stays n : forall k i, wfk k -> layer_ref (k_cfg k) i ->
  sf (stays k) (drop_oneshots n k i).
Proof.
  induction n; intros k i W Hi; cbn [drop_oneshots]; [now apply stays_refl|].
  apply sf_trans; [now apply deactivate_stays|]. intros k1 Hk1.
  rewrite <- (stays_cfg _ _ Hk1) in Hi.
  set (k2 := set_lsi i _ k1).
  assert (H2 : stays k1 k2) by (apply flags_stays; auto; apply Hk1).
  eapply safe_weak; [apply IHn; [apply H2|]|].
  - rewrite (stays_cfg _ _ H2). exact Hi.
  - intros k3. now apply stays_trans.
Qed.

Lemma clear_oneshot_layers_stays l : forall k, wfk k -> sf (stays k) (clear_oneshot_layers l k).
Proof.
  induction l as [|i l IH]; intros k W; cbn [clear_oneshot_layers]; [now apply stays_refl|].
  apply sf_trans.
  - destruct (N.eqb_spec (l_depth (k_ls k i)) 0).
    + rewrite e. now apply stays_refl.
    + apply drop_oneshots_stays; auto. apply (wk_flags _ W). auto.
  - intros k1 Hk1. apply IH. apply Hk1.
Qed.
Lemma clear_oneshot_stays k : wfk k -> sf (stays k) (clear_oneshot k).
Proof.
  intros W. unfold clear_oneshot. apply sf_trans; [now apply clear_oneshot_layers_stays|].
  intros k1 [W1 _]. cbn [safe]. ints.
Qed.

Lemma clear_toggled_stays l : forall k, wfk k -> sf (stays k) (clear_toggled l k).
Proof.
  induction l as [|i l IH]; intros k W; cbn [clear_toggled]; [now apply stays_refl|].
  apply sf_trans; [|intros k1 Hk1; apply IH, Hk1].
  destruct (negb _ && _) eqn:E; [|now apply stays_refl].
  apply andb_true_iff in E as [_ E].
  assert (Hi : layer_ref (k_cfg k) i) by (apply (wk_flags _ W); auto).
  assert (H2 : stays k (set_lsi i (set_l_toggled false (k_ls k i)) k)) by (apply flags_stays; auto).
  eapply safe_weak; [apply deactivate_stays; [apply H2|]|].
  - rewrite (stays_cfg _ _ H2). exact Hi.
  - intros k3. now apply stays_trans.
Qed.
Lemma clear_stays k : wfk k -> sf (stays k) (clear k).
Proof.
  intros W. unfold clear. apply sf_trans; [now apply clear_oneshot_stays|]. intros k1 H1.
  apply sf_trans; [apply clear_toggled_stays, H1|]. intros k2 H2. cbn [safe].
  eapply stays_trans; [|apply grow_stays; [|apply reset_keystate_grow]].
  - assert (W2 : wfk k2) by apply H2. split.
    + destruct W2 as [V1 V2 V3 V4 V5 V6 V7 V7' V8 V9]. constructor; auto. intros m Hm. discriminate.
    + now apply wsteps_int.
  - destruct H2 as [[V1 V2 V3 V4 V5 V6 V7 V7' V8 V9] _]. constructor; auto. intros m Hm. discriminate.
Qed.

Lemma fold_drop_flags l : forall k i,
  l_toggled (k_ls (fold_left drop_layout l k) i) = l_toggled (k_ls k i)
  /\ l_depth (k_ls (fold_left drop_layout l k) i) = l_depth (k_ls k i).
Proof.
  induction l as [|j l IH]; intros k i; auto. cbn [fold_left].
  destruct (IH (drop_layout k j) i) as [-> ->]. unfold drop_layout. destruct (is_layout _); auto.
  cbn [set_lsi set_k_ls k_ls]. unfold nupd. destruct (Nat.eqb_spec i j) as [->|]; auto.
Qed.
Lemma fold_drop_shape l : forall k, exists ls, fold_left drop_layout l k = set_k_ls ls k.
Proof.
  induction l as [|j l IH]; intros k; cbn [fold_left].
  - exists (k_ls k). destruct k; reflexivity.
  - destruct (IH (drop_layout k j)) as [ls ->]. exists ls. unfold drop_layout.
    destruct (is_layout _); reflexivity.
Qed.
Lemma to_layout_stays k idx : wfk k -> layout_ref (k_cfg k) idx -> stays k (to_layout k idx).
Proof.
  intros W Hi. split; [|now apply wsteps_one, w_layout].
  assert (Hf : forall i, l_toggled (k_ls (to_layout k idx) i) = l_toggled (k_ls k i)
             /\ l_depth (k_ls (to_layout k idx) i) = l_depth (k_ls k i)).
  { intros i. unfold to_layout. cbn [emit set_k_out k_ls].
    destruct (fold_drop_flags (seq 1 (nlayers k - 1)) k i) as [E1 E2].
    destruct (Nat.eqb idx 0); auto.
    cbn [set_lsi set_k_ls k_ls]. unfold nupd. destruct (Nat.eqb_spec i idx) as [->|]; auto. }
  apply (same_wf_wfk k); auto.
  - unfold to_layout. destruct (fold_drop_shape (seq 1 (nlayers k - 1)) k) as [ls ->].
    destruct (Nat.eqb idx 0); repeat split.
  - intros i. destruct (Hf i) as [-> ->]. apply W.
Qed.
Lemma setlayout_stays k idx : wfk k -> layout_ref (k_cfg k) idx -> sf (stays k) (setlayout k idx).
Proof.
  intros W Hi. unfold setlayout.
  assert (chk_layer idx = Ok tt) as ->.
  { unfold chk_layer, MAX_LAYERS. pose proof (wf_layers_max _ (wk_cfg _ W)). destruct Hi.
    destruct (Nat.ltb_spec idx 32); auto. lia. }
  cbn [bind]. apply sf_trans; [now apply clear_stays|]. intros k1 H1. cbn [safe].
  apply (to_layout_stays k1 idx); [apply H1|]. now rewrite (stays_cfg _ _ H1).
Qed.

Lemma schedule_stays k t : wfk k -> sf (stays k) (schedule_timeout k t).
Proof. intros W. unfold schedule_timeout. destruct (Nat.ltb _ _); [|exact Logic.I]. cbn [safe]. ints. Qed.

(* ---- tables ----------------------------------------------------------------------- *)
Lemma macro_at_safe k m : (N.of_nat m < 256)%N -> sf (fun _ => True) (macro_at k m).
Proof. intros. unfold macro_at, MAX_MACROS. destruct (Nat.ltb_spec m 256); [exact Logic.I|]. lia. Qed.
Lemma cmd_at_safe k m : (N.of_nat m < 64)%N -> sf (fun _ => True) (cmd_at k m).
Proof. intros. unfold cmd_at, MAX_COMMANDS. destruct (Nat.ltb_spec m 64); [exact Logic.I|]. lia. Qed.
Lemma sdesc_weak c nd nm nc d : (nd <= 1024)%N -> (nm <= 256)%N -> (nc <= 64)%N ->
  ok_desc c nd nm nc d -> sdesc c d.
Proof. apply ok_desc_mono. Qed.
Lemma desc_at_safe k a : wf_config (k_cfg k) -> (N.of_nat a < 1024)%N ->
  sf (sdesc (k_cfg k)) (desc_at k a).
Proof.
  intros W H. unfold desc_at. destruct (N.ltb_spec (N.of_nat a) 1024); [|lia]. cbn [safe].
  destruct (Nat.ltb_spec a (length (c_descs (k_cfg k)))).
  - eapply sdesc_weak; [..|apply (wf_descs _ W a); assumption].
    + lia.
    + apply (wf_macros_max _ W).
    + pose proof (wf_cmds_max _ W). lia.
  - rewrite nth_overflow by lia. exact Logic.I.
Qed.

Lemma keymap_sdesc c i code : wf_config c -> sdesc c (ly_keymap (nth i (c_layers c) zero_layer) code).
Proof.
  intros W. destruct (Nat.ltb_spec i (length (c_layers c))).
  - eapply sdesc_weak; [..|apply (wl_keymap c (nth i (c_layers c) zero_layer))].
    + apply (wf_descs_max _ W).
    + apply (wf_macros_max _ W).
    + pose proof (wf_cmds_max _ W). lia.
    + apply (wf_layers _ W). now apply nth_In.
  - rewrite nth_overflow by lia. exact Logic.I.
Qed.

(* changing the cache *)
Lemma cache_stays k ca : wfk k -> length ca = 16 -> Forall (ce_ok (k_cfg k)) ca -> stays k (set_k_cache ca k).
Proof.
  intros [W1 W2 W3 W4 W5 W6 W7 W7' W8 W9] H1 H2. split; [|now apply wsteps_int]. constructor; auto.
Qed.
Lemma cache_upd_stays k i e : wfk k -> ce_ok (k_cfg k) e -> stays k (set_k_cache (upd i e (k_cache k)) k).
Proof.
  intros W He. apply cache_stays; auto.
  - rewrite upd_length. apply W.
  - apply Forall_upd; auto. apply W.
Qed.
Lemma zero_ce_ok k : wfk k -> ce_ok (k_cfg k) zero_ce.
Proof. intros W. split; [exact Logic.I|]. pose proof (wf_some _ (wk_cfg _ W)). cbn. lia. Qed.
Lemma cache_nth_ok k i : wfk k -> ce_ok (k_cfg k) (nth i (k_cache k) zero_ce).
Proof. intros W. apply Forall_nth_d; [apply (wk_cache _ W)|now apply zero_ce_ok]. Qed.
Lemma cache_replace_stays k code d : wfk k -> sdesc (k_cfg k) d -> stays k (cache_replace_d k code d).
Proof.
  intros W Hd. unfold cache_replace_d. destruct (cache_find _ _ _); [|now apply stays_refl].
  apply cache_upd_stays; auto. split; auto. apply (cache_nth_ok k n W).
Qed.
Lemma cache_set_stays k code ent k' : wfk k -> (forall e, ent = Some e -> ce_ok (k_cfg k) e) ->
  cache_set k code ent = Some k' -> stays k k'.
Proof.
  intros W He H. unfold cache_set in H. destruct (cache_slot _ _ _ _); [|discriminate].
  injection H as <-. apply cache_upd_stays; auto.
  destruct ent as [e|]; [apply (He e eq_refl)|apply (cache_nth_ok k n W)].
Qed.

(* ---- actions ---------------------------------------------------------------------- *)
Section Actions.
Variable c : config.
Definition wfc (k : kbd) : Prop := wfk k /\ k_cfg k = c.

Lemma wfc_stays k k' : wfc k -> stays k k' -> wfc k'.
Proof. intros [W E] H. split; [apply H|]. rewrite (stays_cfg _ _ H). exact E. Qed.
End Actions.

Lemma swap_slot_spec k dl : forall ca i j, swap_slot k ca dl i = Some j ->
  dl <> 0 /\ is_normal (ly_type (layer_at k dl)) = true.
Proof.
  induction ca as [|e r IH]; cbn [swap_slot]; intros i j H; [discriminate|].
  destruct (negb _ && _ && _ && _) eqn:E; [|eauto].
  bsplit. subst dl. auto.
Qed.

Lemma do_swap_stays k dl idx : wfk k -> dl < length (c_layers (k_cfg k)) -> layer_ref (k_cfg k) idx ->
  sf (stays k) (do_swap k dl idx).
Proof.
  intros W Hdl Hi. unfold do_swap.
  assert (chk_layer dl = Ok tt) as ->.
  { unfold chk_layer, MAX_LAYERS. pose proof (wf_layers_max _ (wk_cfg _ W)).
    destruct (Nat.ltb_spec dl 32); auto. lia. }
  cbn [bind]. rewrite (layer_ref_max _ _ W Hi). cbn [bind].
  destruct (l_toggled (k_ls k dl)) eqn:Et; [|destruct (N.eqb_spec (l_depth (k_ls k dl)) 0) as [Ed|Ed]]; cbn [negb].
  - assert (Hd : layer_ref (k_cfg k) dl) by (apply (wk_flags _ W); auto).
    apply sf_trans; [now apply deactivate_stays|]. intros k1 H1. cbv zeta.
    assert (C1 := stays_cfg _ _ H1).
    assert (H2 : stays k1 (set_lsi dl (set_l_toggled false (k_ls k1 dl)) k1)).
    { apply flags_stays; try reflexivity; [apply H1|now rewrite C1]. }
    eapply safe_bind; [apply activate_stays; [apply H2|]|].
    { rewrite (stays_cfg _ _ H2), C1. exact Hi. }
    intros k3 H3. cbn [safe].
    eapply stays_trans; [exact H2|]. eapply stays_trans; [exact H3|].
    assert (C3 := stays_cfg _ _ H3). rewrite (stays_cfg _ _ H2), C1 in C3.
    assert (H4 : stays k3 (set_lsi idx (set_l_toggled true (k_ls k3 idx)) k3)).
    { apply flags_stays; try reflexivity; [apply H3|now rewrite C3]. }
    eapply stays_trans; [exact H4|]. apply um_stays, H4.
  - destruct (swap_slot k (k_cache k) dl 0) as [j|] eqn:Es; [|now apply stays_refl].
    apply swap_slot_spec in Es as [Hd0 Hn].
    assert (Hd : layer_ref (k_cfg k) dl).
    { repeat split; auto. unfold layer_at in Hn. destruct (ly_type _); discriminate. }
    set (e := nth j (k_cache k) zero_ce).
    set (k0 := set_k_cache _ k).
    assert (H0 : stays k k0).
    { apply cache_upd_stays; auto. split; [exact Hi|]. apply (cache_nth_ok k j W). }
    eapply safe_bind; [apply deactivate_stays; [apply H0|]|]; [exact Hd|].
    intros k1 H1. assert (C1 := stays_cfg _ _ H1). cbn [k0 k_cfg set_k_cache] in C1.
    eapply safe_bind; [apply activate_stays; [apply H1|]|]; [now rewrite C1|].
    intros k2 H2. cbn [safe].
    eapply stays_trans; [exact H0|]. eapply stays_trans; [exact H1|]. eapply stays_trans; [exact H2|].
    apply um_stays, H2.
  - assert (Hd : layer_ref (k_cfg k) dl) by (apply (wk_flags _ W); auto).
    apply sf_trans; [now apply deactivate_stays|]. intros k1 H1. cbv zeta.
    assert (C1 := stays_cfg _ _ H1).
    assert (H2 : stays k1 (set_lsi dl (set_l_depth (l_depth (k_ls k1 dl) - 1) (k_ls k1 dl)) k1)).
    { apply flags_stays; try reflexivity; [apply H1|now rewrite C1]. }
    eapply safe_bind; [apply activate_stays; [apply H2|]|].
    { rewrite (stays_cfg _ _ H2), C1. exact Hi. }
    intros k3 H3. cbn [safe].
    eapply stays_trans; [exact H2|]. eapply stays_trans; [exact H3|].
    assert (C3 := stays_cfg _ _ H3). rewrite (stays_cfg _ _ H2), C1 in C3.
    match goal with |- stays _ (update_mods _ (set_lsi idx ?l k3) _ _) =>
      assert (H4 : stays k3 (set_lsi idx l k3)) end.
    { apply flags_stays; try reflexivity; [apply H3|now rewrite C3]. }
    eapply stays_trans; [exact H4|]. apply um_stays, H4.
Qed.

Lemma pd_swap_stays k idx dl mm pressed : wfk k -> dl < length (c_layers (k_cfg k)) ->
  layer_ref (k_cfg k) idx -> sf (stays k) (pd_swap k idx dl mm pressed).
Proof.
  intros W Hdl Hi. unfold pd_swap. destruct pressed.
  - apply sf_trans; [now apply do_swap_stays|]. intros k1 H1. cbn [safe].
    destruct mm; [|apply stays_refl, H1]. apply grow_stays; [apply H1|apply execute_macro_grow].
  - cbn [safe]. destruct mm as [m|]; [|now apply stays_refl].
    destruct m as [|[[] d] [|? ?]]; try (now apply stays_refl).
    apply grow_stays; auto. eapply keys_grow_trans; [apply send_key_grow|apply update_mods_grow].
Qed.

Lemma set_pending_stays k code dl expire b a1 a2 : wfk k -> dl < length (c_layers (k_cfg k)) ->
  sdesc (k_cfg k) a1 -> sdesc (k_cfg k) a2 -> sf (stays k) (set_pending k code dl expire b a1 a2).
Proof.
  intros W Hdl H1 H2. unfold set_pending.
  assert (Hs : stays k (set_k_pend (mkPend code dl expire b (p_queue (k_pend k)) a1 a2) k)).
  { split; [|now apply wsteps_int].
    destruct W as [W1 W2 W3 W4 W5 W6 W7 W7' W8 W9]. constructor; cbn; auto. }
  eapply safe_weak; [apply schedule_stays, Hs|]. intros k'. now apply stays_trans.
Qed.

Lemma pd_key_stays k cc mods dl pressed time : wfk k -> sf (stays k) (pd_key k cc mods dl pressed time).
Proof.
  intros W. unfold pd_key. apply sf_trans.
  - destruct pressed.
    + set (a := if k_ks k cc then send_key k cc false else k).
      assert (Ha : keys_grow k a) by (subst a; destruct (k_ks k cc); auto using send_key_grow, keys_grow_refl).
      set (b := send_key (update_mods false a (Some dl) mods) cc true).
      assert (Hb : stays k b).
      { apply grow_stays; auto. eapply keys_grow_trans; [exact Ha|].
        eapply keys_grow_trans; [apply update_mods_grow|apply send_key_grow]. }
      cbv zeta. eapply safe_weak; [apply clear_oneshot_stays, Hb|]. intros k'. now apply stays_trans.
    + cbn [safe]. apply grow_stays; auto. eapply keys_grow_trans; [apply send_key_grow|apply update_mods_grow].
  - intros k1 [W1 _]. cbn [safe]. destruct (_ || _); [ints|now apply stays_refl].
Qed.

Lemma pd_layer_stays k code idx pressed : wfk k -> layer_ref (k_cfg k) idx ->
  sf (stays k) (pd_layer k code idx pressed).
Proof.
  intros W Hi. unfold pd_layer. apply sf_trans.
  - destruct pressed; [now apply activate_stays|now apply deactivate_stays].
  - intros k1 [W1 _]. now apply um_stays.
Qed.

Lemma pd_oneshot_stays k code idx dl pressed time : wfk k -> layer_ref (k_cfg k) idx ->
  sf (stays k) (pd_oneshot k code idx dl pressed time).
Proof.
  intros W Hi. unfold pd_oneshot. destruct pressed; [|destruct (k_latch k)].
  - apply sf_trans; [now apply activate_stays|]. intros k1 [W1 _]. cbn [safe].
    assert (H2 := um_stays false k1 (Some dl) 0%N W1).
    eapply stays_trans; [exact H2|]. destruct H2 as [W2 _]. ints.
  - rewrite (layer_ref_max _ _ W Hi). cbn [bind].
    set (k1 := set_lsi idx _ k).
    assert (H1 : stays k k1) by now apply flags_stays.
    destruct (_ =? 0)%Z; [exact H1|].
    cbv zeta. eapply safe_weak; [apply schedule_stays|].
    + destruct H1 as [W1 _]. eapply same_wf_ls with (k := k1); auto. repeat split.
    + intros k'. intros H'. eapply stays_trans; [exact H1|]. eapply stays_trans; [|exact H'].
      destruct H1 as [W1 _]. ints.
  - apply sf_trans; [now apply deactivate_stays|]. intros k1 [W1 _]. now apply um_stays.
Qed.

Lemma pd_macro_stays k m timeout repeat dl pressed time : wfk k -> (N.of_nat m < 256)%N ->
  sf (stays k) (pd_macro k m timeout repeat dl pressed time).
Proof.
  intros W Hm. unfold pd_macro. destruct pressed; [|now apply stays_refl].
  eapply safe_bind; [now apply macro_at_safe|]. intros mm _.
  assert (H0 : stays k (set_k_repeat repeat k)) by ints.
  eapply safe_bind; [apply clear_oneshot_stays, H0|]. intros k1 H1. cbv zeta.
  assert (H2 : stays k1 (execute_macro k1 dl mm)).
  { apply grow_stays; [apply H1|apply execute_macro_grow]. }
  set (k3 := set_k_macro_to _ _).
  assert (H3 : stays (execute_macro k1 dl mm) k3).
  { destruct H2 as [[W1 W2 W3 W4 W5 W6 W7 W7' W8 W9] _]. split; [|now apply wsteps_int].
    constructor; auto. cbn. intros m' E. injection E as <-. exact Hm. }
  eapply safe_weak; [apply schedule_stays, H3|]. intros k' H'.
  eapply stays_trans; [exact H0|]. eapply stays_trans; [exact H1|]. eapply stays_trans; [exact H2|].
  eapply stays_trans; [exact H3|exact H'].
Qed.

Lemma pd_toggle_stays k code idx pressed : wfk k -> layer_ref (k_cfg k) idx ->
  sf (stays k) (pd_toggle k code idx pressed).
Proof.
  intros W Hi. unfold pd_toggle. destruct pressed; [|now apply stays_refl].
  rewrite (layer_ref_max _ _ W Hi). cbn [bind]. cbv zeta.
  set (k1 := set_lsi idx _ k).
  assert (H1 : stays k k1) by now apply flags_stays.
  eapply safe_bind with (P := stays k1).
  { destruct (l_toggled _); [apply deactivate_stays|apply activate_stays]; first [exact (proj1 H1)|exact Hi]. }
  intros k2 H2. eapply safe_weak; [apply clear_oneshot_stays|].
  - apply (um_stays false k2 None 0%N), H2.
  - intros k3 H3. eapply stays_trans; [exact H1|]. eapply stays_trans; [exact H2|].
    eapply stays_trans; [apply um_stays, H2|exact H3].
Qed.

Lemma pre_macro_stays d pressed dl k : wfk k -> sdesc (k_cfg k) d -> sf (stays k) (pre_macro d pressed dl k).
Proof.
  intros W Hd. unfold pre_macro. destruct pressed; [|now apply stays_refl].
  assert (G : forall m, (N.of_nat m < 256)%N ->
            sf (stays k) (mm <- macro_at k m ;; Ok (execute_macro k dl mm))).
  { intros m Hm. eapply safe_bind; [now apply macro_at_safe|]. intros mm _. cbn [safe].
    apply grow_stays; auto. apply execute_macro_grow. }
  destruct d; try (now apply stays_refl); apply G; cbn in Hd; tauto.
Qed.

Lemma pd_stays : forall fuel k code d dl pressed time,
  wfk k -> sdesc (k_cfg k) d -> dl < length (c_layers (k_cfg k)) ->
  sf (stays k) (process_descriptor fuel k code d dl pressed time).
Proof.
  induction fuel as [|fuel IH]; intros k code d dl pressed time W Hd Hdl; [exact Logic.I|].
  cbn [process_descriptor].
  apply sf_trans; [now apply pre_macro_stays|]. intros k0 H0.
  assert (C0 := stays_cfg _ _ H0). assert (W0 : wfk k0) by apply H0.
  rewrite <- C0 in Hd, Hdl. clear k W H0 C0.
  apply sf_trans.
  2: { intros k1 [W1 _]. cbn [safe]. destruct pressed; [ints|now apply stays_refl]. }
  pose proof (wk_cfg _ W0) as WC.
  unfold sdesc, ok_desc in Hd.
  destruct d; cbv beta iota zeta in Hd;
    try match type of Hd with _ /\ _ => destruct Hd as [Hd1 Hd2] end;
    try match type of Hd2 with _ /\ _ => destruct Hd2 as [Hd2 Hd3] end.
  - now apply stays_refl.
  - now apply pd_key_stays.
  - now apply pd_oneshot_stays.
  - now apply pd_oneshot_stays.
  - now apply pd_layer_stays.
  - now apply pd_swap_stays.
  - eapply safe_bind; [now apply macro_at_safe|]. intros mm _. now apply pd_swap_stays.
  - now apply pd_layer_stays.
  - destruct pressed; [|now apply stays_refl]. now apply setlayout_stays.
  - destruct pressed; [|now apply stays_refl]. now apply clear_stays.
  - destruct pressed; [|now apply stays_refl]. eapply safe_bind; [now apply macro_at_safe|]. intros mm _.
    apply sf_trans; [now apply clear_stays|]. intros k1 [W1 _]. cbn [safe].
    apply grow_stays; auto. apply execute_macro_grow.
  - (* overload *)
    eapply safe_bind; [now apply desc_at_safe|]. intros action Ha. destruct pressed.
    + eapply safe_bind with (P := stays k0).
      { eapply safe_weak; [apply activate_stays|].
        - apply (same_wf_ls k0 (set_k_ovl_start time k0)); auto. repeat split.
        - exact Hd1.
        - intros k1 H1. eapply stays_trans; [|exact H1]. ints. }
      intros k1 H1. cbn [safe]. eapply stays_trans; [exact H1|]. apply um_stays, H1.
    + apply sf_trans; [now apply deactivate_stays|]. intros k1 H1. cbv zeta.
      assert (H2 := um_stays false k1 None 0%N (proj1 H1)).
      set (k2 := update_mods false k1 None 0%N) in *.
      assert (C2 : k_cfg k2 = k_cfg k0).
      { rewrite (stays_cfg _ _ H2). apply (stays_cfg _ _ H1). }
      assert (W2 : wfk k2) by apply H2.
      assert (G : sf (stays k2)
        (k3 <- process_descriptor fuel k2 code action dl true time ;;
         process_descriptor fuel k3 code action dl false time)).
      { apply sf_trans; [apply IH; auto; now rewrite C2|]. intros k3 H3.
        assert (C3 := stays_cfg _ _ H3). apply IH; [apply H3|rewrite C3, C2; auto|rewrite C3, C2; auto]. }
      destruct (_ && _); [|exact H2].
      eapply safe_weak with (P := stays k2); [|intros k3; apply stays_trans, H2].
      destruct action; try exact G.
      eapply safe_bind; [now apply macro_at_safe|]. intros mm _. cbn [safe].
      apply grow_stays; auto. apply execute_macro_grow.
  - destruct pressed; [|now apply stays_refl].
    eapply safe_bind; [now apply desc_at_safe|]. intros action Ha. now apply set_pending_stays.
  - destruct pressed; [|now apply stays_refl].
    eapply safe_bind; [now apply desc_at_safe|]. intros action Ha. now apply set_pending_stays.
  - destruct pressed; [|now apply stays_refl].
    eapply safe_bind; [apply desc_at_safe; auto; destruct (_ <=? _)%Z; auto|]. intros action Ha.
    apply sf_trans; [now apply IH|]. intros k1 H1. cbn [safe].
    apply cache_replace_stays; [apply H1|]. now rewrite (stays_cfg _ _ H1).
  - now apply pd_toggle_stays.
  - now apply pd_toggle_stays.
  - now apply pd_macro_stays.
  - now apply pd_macro_stays.
  - destruct pressed; [|now apply stays_refl].
    eapply safe_bind; [now apply cmd_at_safe|]. intros cmd _.
    assert (H1 : stays k0 (emit (OCmd cmd) k0)).
    { apply grow_stays; auto. exists (k_last_out k0), (k_ks k0), [OCmd cmd].
      split; [destruct k0; reflexivity|reflexivity]. }
    eapply safe_bind; [apply clear_oneshot_stays, H1|]. intros k1 H2. cbn [safe].
    eapply stays_trans; [exact H1|]. eapply stays_trans; [exact H2|]. apply um_stays, H2.
  - destruct pressed; [|now apply stays_refl].
    eapply safe_bind; [now apply desc_at_safe|]. intros x1 Hx1.
    eapply safe_bind; [now apply desc_at_safe|]. intros x2 Hx2. now apply set_pending_stays.
  - split; [destruct W0; constructor; try assumption; destruct pressed; exact Hd|apply wsteps_int; try reflexivity; now destruct pressed].
  - split; [destruct W0; constructor; try assumption; exact Hd|now apply wsteps_int].
Qed.
