(* Accounting of layer activations. *)
From Verif Require Import Base Lib Keys Types MacroExec Kbd Config Steps Hist SpecTrace SpecMods SpecLookup
  SpecHist SpecActions SpecKept SpecAccount TraceProofs ModsProofs LookupProofs Engine SpecWf Wf ActProofs StepProofs OneProofs
  CacheProofs Inv ClassInv ParseWf WfHist KeptProofs LiftOk.

Definition av (l : lst) : Z := (Z.of_N (l_active l) - (if l_toggled l then 1 else 0) - Z.of_N (l_depth l))%Z.
Definition cds (c : list centry) : list (N * desc) := map (fun e => (ce_code e, ce_d e)) c.
Lemma set_ce_layer_cds c x i : cds (set_ce_layer c x i) = cds c.
Proof.
  unfold set_ce_layer, cds. destruct (cache_find _ _ _) as [j|]; auto. rewrite map_upd. cbn [ce_d ce_code].
  rewrite <- (upd_nth j (map _ c) (0%N, DNone)) at 2. f_equal.
  change (0%N, DNone) with ((fun e => (ce_code e, ce_d e)) zero_ce). now rewrite map_nth.
Qed.

Section Account.
Variable T : nat -> desc.
Variable K : nat -> bool.
Variable i : nat.
Hypothesis Ki : K i = false.

Definition small (k : kbd) : Prop := (l_active (k_ls k i) < 256)%N.
Definition adds (n : Z) (k k' : kbd) : Prop :=
  (small k -> small k') /\ exists z, av (k_ls k' i) = (av (k_ls k i) + n + 256 * z)%Z.
Definition eff (n : Z) (k k' : kbd) : Prop :=
  k_cfg k' = k_cfg k /\ cds (k_cache k') = cds (k_cache k) /\ k_pend k' = k_pend k /\ adds n k k'.
Lemma eff_same k k' : k_cfg k' = k_cfg k -> k_cache k' = k_cache k -> k_pend k' = k_pend k -> k_ls k' = k_ls k ->
  eff 0 k k'.
Proof. intros H1 H2 H3 H4. unfold eff, adds, small. rewrite H1, H2, H3, H4. repeat split; auto. exists 0%Z. lia. Qed.
Lemma eff_refl k : eff 0 k k. Proof. now apply eff_same. Qed.
Lemma eff_trans n m p a b c : eff n a b -> eff m b c -> p = (n + m)%Z -> eff p a c.
Proof.
  intros [A1 [A2 [A3 [A5 [z A4]]]]] [B1 [B2 [B3 [B5 [y B4]]]]] ->. repeat split; try congruence; auto.
  exists (z + y)%Z. lia.
Qed.
Lemma eff_post n a b c : eff n a b -> eff 0 b c -> eff n a c.
Proof. intros A B. eapply eff_trans; eauto. lia. Qed.
Lemma eff_pre n a b c : eff 0 a b -> eff n b c -> eff n a c.
Proof. intros A B. eapply eff_trans; eauto. Qed.
Lemma eff_keys n k l s o k' : eff n k k' -> eff n k (kk l s o k').
Proof. auto. Qed.
Definition hz (d : desc) : Z := if holds d i then 1%Z else 0%Z.
Definition one (j : nat) : Z := if Nat.eqb j i then 1%Z else 0%Z.

Lemma activate_eff k code j k' : activate_layer k code j = Ok k' -> eff (one j) k k'.
Proof.
  intros H. apply activate_ok in H as [b ->]. repeat split; [kcbn; apply set_ce_layer_cds|..]; unfold small, one; kcbn; unfold nupd.
  { destruct (Nat.eqb i j); [|auto]. intros _. cbn [l_active]. lia. }
  rewrite (Nat.eqb_sym i j). destruct (Nat.eqb_spec j i) as [->|].
  - unfold av. cbn [l_active l_toggled l_depth].
    exists (- ((Z.of_N (l_active (k_ls k i)) + 1) / 256))%Z. rewrite N2Z.inj_mod, N2Z.inj_add.
    change (Z.of_N 256) with 256%Z. change (Z.of_N 1) with 1%Z.
    pose proof (Z.div_mod (Z.of_N (l_active (k_ls k i)) + 1) 256). lia.
  - exists 0%Z. lia.
Qed.
Lemma deactivate_eff k j k' : deactivate_layer k j = Ok k' -> eff (- one j) k k'.
Proof.
  intros H. apply deactivate_ok in H as [Hz [b ->]]. repeat split; unfold small, one; kcbn; unfold nupd.
  { destruct (Nat.eqb_spec i j) as [Ex|]; [|auto]. rewrite <- Ex. cbn [l_active set_l_active]. lia. }
  rewrite (Nat.eqb_sym i j). destruct (Nat.eqb_spec j i) as [->|].
  - unfold av. cbn [l_active l_toggled l_depth set_l_active]. exists 0%Z. lia.
  - exists 0%Z. lia.
Qed.
Lemma keys_eff k k' : keys_only k k' -> eff 0 k k'.
Proof. intros [l [s [o ->]]]. now apply eff_same. Qed.
Lemma update_mods_eff inh k e m : eff 0 k (update_mods inh k e m).
Proof. apply keys_eff, update_mods_only. Qed.
Lemma send_key_eff k c p : eff 0 k (send_key k c p).
Proof. apply keys_eff, send_key_only. Qed.
Lemma execute_macro_eff k dl m : eff 0 k (execute_macro k dl m).
Proof. apply keys_eff, execute_macro_only. Qed.
Lemma cleared_av l : (l_depth l <= l_active l)%N -> av (cleared l) = av l.
Proof. unfold av, cleared. cbn [l_active l_toggled l_depth]. lia. Qed.
Lemma clear_oneshot_eff k k' : clear_oneshot k = Ok k' -> eff 0 k k'.
Proof.
  intros H. apply clear_oneshot_ok in H as [ls [ns [-> [_ [H1 H2]]]]]. repeat split; [|exists 0%Z]; unfold small; kcbn.
  { destruct (Nat.lt_ge_cases i (nlayers k)) as [L|L]; [|now rewrite H2].
    destruct (H1 i L) as [-> Hd]. unfold cleared. cbn [l_active]. lia. }
  destruct (Nat.lt_ge_cases i (nlayers k)) as [L|L].
  - destruct (H1 i L) as [-> Hd]. rewrite cleared_av by exact Hd. lia.
  - rewrite H2 by exact L. lia.
Qed.
Definition okc (k : kbd) : Prop := tame T K (k_cfg k).
Lemma not_layout k : okc k -> is_layout (ly_type (layer_at k i)) = false.
Proof.
  intros H. destruct (is_layout _) eqn:E; auto. apply is_layout_spec in E.
  pose proof (proj1 (tm_layouts _ _ _ H i) E). congruence.
Qed.
Lemma not_main k : okc k -> i <> 0.
Proof. intros H ->. pose proof (tm_main _ _ _ H). congruence. Qed.
Lemma clear_eff k k' : okc k -> clear k = Ok k' -> eff 0 k k'.
Proof.
  intros Hk H. apply clear_ok in H as [ls [ns [-> [_ [H1 H2]]]]].
  eapply eff_post; [|apply keys_eff].
  2:{ match goal with |- keys_only ?a _ => destruct (reset_keystate_grow a) as [l [s [o [H _]]]] end.
      exists l, s, (o ++ k_out (set_k_amacro None (set_k_oneshot_to 0 (set_k_latch false (lsn ls ns k))))). exact H. }
  repeat split; [|exists 0%Z]; unfold small; kcbn.
  { destruct (Nat.lt_ge_cases i (nlayers k)) as [L|L]; [|now rewrite H2].
    destruct (H1 i L) as [Hd [Hn _]]. destruct (Hn (not_main _ Hk) (not_layout _ Hk)) as [-> Ht].
    unfold untoggled, cleared. cbn [l_toggled l_active l_time l_depth].
    destruct (l_toggled (k_ls k i)); cbn [l_active l_toggled l_depth]; lia. }
  destruct (Nat.lt_ge_cases i (nlayers k)) as [L|L].
  - destruct (H1 i L) as [Hd [Hn _]]. destruct (Hn (not_main _ Hk) (not_layout _ Hk)) as [-> Ht].
    unfold untoggled, cleared. cbn [l_toggled l_active l_time l_depth].
    unfold av. destruct (l_toggled (k_ls k i)); cbn [l_active l_toggled l_depth]; [specialize (Ht eq_refl)|]; lia.
  - rewrite H2 by exact L. lia.
Qed.
Lemma drop_layouts_i k : okc k -> forall l k0, k_cfg k0 = k_cfg k -> k_ls (fold_left drop_layout l k0) i = k_ls k0 i.
Proof.
  intros Hk. induction l as [|x l IH]; intros k0 E; cbn [fold_left]; auto. rewrite IH.
  - unfold drop_layout. destruct (is_layout _) eqn:El; auto. kcbn. unfold nupd.
    destruct (Nat.eqb_spec i x) as [Ex|]; auto. unfold layer_at in El. rewrite E, <- Ex in El.
    pose proof (not_layout _ Hk) as X. unfold layer_at in X. congruence.
  - unfold drop_layout. now destruct (is_layout _).
Qed.
Lemma drop_layouts_same : forall l k0, k_cfg (fold_left drop_layout l k0) = k_cfg k0
  /\ k_cache (fold_left drop_layout l k0) = k_cache k0 /\ k_pend (fold_left drop_layout l k0) = k_pend k0.
Proof.
  induction l as [|x l IH]; intros k0; cbn [fold_left]; auto.
  destruct (IH (drop_layout k0 x)) as [-> [-> ->]]. unfold drop_layout. destruct (is_layout _); auto.
Qed.
Lemma setlayout_eff k j k' : okc k -> K j = true -> setlayout k j = Ok k' -> eff 0 k k'.
Proof.
  intros Hk Hj H. unfold setlayout in H. bstep H u Eu. bstep H k1 E1. apply Ok_inj in H. subst k'.
  pose proof (clear_eff _ _ Hk E1) as F. pose proof F as [F1 _].
  eapply eff_post; [exact F| ].
  pose proof (drop_layouts_same (seq 1 (nlayers k1 - 1)) k1) as [D1 [D2 D3]].
  assert (D4 : k_ls (fold_left drop_layout (seq 1 (nlayers k1 - 1)) k1) i = k_ls k1 i).
  { apply (drop_layouts_i k); auto. }
  assert (i <> j) by congruence.
  destruct (Nat.eqb j 0); unfold eff, adds, small; kcbn; rewrite D1, D2, D3.
  - rewrite D4. repeat split; auto. exists 0%Z. lia.
  - unfold nupd. destruct (Nat.eqb_spec i j); [congruence|]. rewrite D4. repeat split; auto. exists 0%Z. lia.
Qed.
Lemma schedule_eff k t k' : schedule_timeout k t = Ok k' -> eff 0 k k'.
Proof. intros H. apply schedule_ok in H as ->. now apply eff_same. Qed.
Lemma depth_eff k j : eff (- one j) k (set_lsi j (set_l_depth ((l_depth (k_ls k j) + 1) mod 256) (k_ls k j)) k).
Proof.
  repeat split; unfold small, one; kcbn; unfold nupd.
  { destruct (Nat.eqb_spec i j) as [Ex|]; [|auto]. now rewrite <- Ex. }
  rewrite (Nat.eqb_sym i j). destruct (Nat.eqb_spec j i) as [->|].
  - unfold av. cbn [l_active l_toggled l_depth set_l_depth].
    exists ((Z.of_N (l_depth (k_ls k i)) + 1) / 256)%Z. rewrite N2Z.inj_mod, N2Z.inj_add.
    change (Z.of_N 256) with 256%Z. change (Z.of_N 1) with 1%Z.
    pose proof (Z.div_mod (Z.of_N (l_depth (k_ls k i)) + 1) 256). lia.
  - exists 0%Z. lia.
Qed.
Lemma toggle_eff k j b : l_toggled (k_ls k j) = negb b ->
  eff (if b then - one j else one j) k (set_lsi j (set_l_toggled b (k_ls k j)) k).
Proof.
  intros Hb. repeat split; unfold small, one; kcbn; unfold nupd.
  { destruct (Nat.eqb_spec i j) as [Ex|]; [|auto]. now rewrite <- Ex. }
  rewrite (Nat.eqb_sym i j).
  destruct (Nat.eqb_spec j i) as [->|].
  - unfold av. cbn [l_active l_toggled l_depth set_l_toggled]. rewrite Hb. exists 0%Z. destruct b; cbn [negb]; lia.
  - exists 0%Z. destruct b; lia.
Qed.

Lemma nested_tame k a x : okc k -> desc_at k a = Ok x -> tame_desc T K x /\ (x = DNone \/ x = T a).
Proof.
  intros H Hx. split.
  - apply desc_at_in in Hx as [->|Hx]; [exact I|]. now apply (tm_descs _ _ _ H).
  - unfold desc_at in Hx. destruct (_ <? _)%N; [|discriminate]. apply Ok_inj in Hx. subst x.
    destruct (Nat.lt_ge_cases a (length (c_descs (k_cfg k)))) as [L|L].
    + right. now apply (tm_nested _ _ _ H).
    + left. now apply nth_overflow.
Qed.

Lemma pd_eff : forall fuel k code d dl pressed time k',
  okc k -> tame_desc T K d ->
  process_descriptor fuel k code d dl pressed time = Ok k' ->
  (pressed = false -> eff (- hz d) k k')
  /\ (pressed = true -> is_overloadi d = false -> pending_kind d = false -> eff (hz d) k k').
Proof.
  induction fuel as [|fuel IH]; intros k code d dl pressed time k' Hk Hd H; [discriminate|].
  apply pd_unfold in H as [k0 [k1 [E0 [-> E1]]]].
  assert (F0 : eff 0 k k0) by (apply keys_eff; eapply pre_macro_only; eauto).
  assert (Hk0 : okc k0) by (unfold okc; rewrite (proj1 F0); exact Hk).
  cut ((pressed = false -> eff (- hz d) k0 k1)
       /\ (pressed = true -> is_overloadi d = false -> pending_kind d = false -> eff (hz d) k0 k1)).
  { intros [A B]. split; intros; subst pressed.
    - eapply eff_trans; [exact F0|apply A; auto|lia].
    - eapply eff_post with (b := k1); [|now apply eff_same].
      eapply eff_trans; [exact F0|apply B; auto|lia]. }
  clear E0 F0 Hk k.
  assert (Z0 : forall n, n = 0%Z -> k1 = k0 -> eff n k0 k1) by (intros n -> ->; apply eff_refl).
  assert (Lay : forall l, pd_layer k0 code l pressed = Ok k1 ->
     (pressed = false -> eff (- one l) k0 k1) /\ (pressed = true -> eff (one l) k0 k1)).
  { intros l E. unfold pd_layer in E. bstep E k2 E2. apply Ok_inj in E. subst k1. split; intros; subst pressed.
    - eapply eff_trans; [apply deactivate_eff, E2|apply update_mods_eff|lia].
    - eapply eff_trans; [eapply activate_eff, E2|apply update_mods_eff|lia]. }
  assert (One : forall l, pd_oneshot k0 code l dl pressed time = Ok k1 ->
     (pressed = false -> eff (- one l) k0 k1) /\ (pressed = true -> eff (one l) k0 k1)).
  { intros l E. unfold pd_oneshot in E. split; intros; subst pressed.
    - destruct (k_latch k0).
      + bstep E u Eu. destruct (_ =? 0)%Z; [apply Ok_inj in E; subst; apply depth_eff|].
        eapply eff_post; [apply (depth_eff k0 l)| ].
        eapply eff_post; [|apply (schedule_eff _ _ _ E)]. now apply eff_same.
      + bstep E k2 E2. apply Ok_inj in E. subst k1.
        eapply eff_trans; [apply deactivate_eff, E2|apply update_mods_eff|lia].
    - bstep E k2 E2. apply Ok_inj in E. subst k1.
      eapply eff_post with (b := update_mods false k2 (Some dl) 0); [|now apply eff_same].
      eapply eff_trans; [eapply activate_eff, E2|apply update_mods_eff|lia]. }
  assert (Tog : forall l, pd_toggle k0 code l pressed = Ok k1 -> eff 0 k0 k1).
  { intros l E. unfold pd_toggle in E. destruct pressed; [|apply Ok_inj in E; subst; apply eff_refl].
    bstep E u Eu. bstep E k2 E2. eapply eff_post; [|apply (clear_oneshot_eff _ _ E)].
    eapply eff_post; [|apply update_mods_eff]. destruct (l_toggled (k_ls k0 l)) eqn:Et.
    - eapply eff_trans; [apply (toggle_eff k0 l false Et)|apply (deactivate_eff _ _ _ E2)|lia].
    - eapply eff_trans; [apply (toggle_eff k0 l true Et)|apply (activate_eff _ _ _ _ E2)|lia]. }
  assert (Mac : forall m t r, pd_macro k0 m t r dl pressed time = Ok k1 -> eff 0 k0 k1).
  { intros m t r E. unfold pd_macro in E. destruct pressed; [|apply Ok_inj in E; subst; apply eff_refl].
    bstep E mm Em. bstep E k2 E2. eapply eff_post; [|apply (schedule_eff _ _ _ E)].
    eapply eff_post with (b := execute_macro k2 dl mm); [|now apply eff_same].
    eapply eff_post; [|apply execute_macro_eff].
    eapply eff_post with (b := set_k_repeat r k0); [now apply eff_same|apply clear_oneshot_eff, E2]. }
  assert (Same : hz d = 0%Z -> eff 0 k0 k1 ->
    (pressed = false -> eff (- hz d) k0 k1) /\ (pressed = true -> is_overloadi d = false -> pending_kind d = false -> eff (hz d) k0 k1)).
  { intros -> He. auto. }
  assert (Rel : forall x, (if pressed then x else Ok k0) = Ok k1 -> pressed = false -> k1 = k0).
  { intros x Hx ->. apply Ok_inj in Hx. auto. }
  destruct d; try contradiction Hd;
    try (apply Same; [reflexivity|]; first [apply Tog with l; exact E1 | eapply Mac; exact E1]);
    try (unfold hz, holds; fold (one l); match type of E1 with
         | pd_layer _ _ _ _ = _ => destruct (Lay _ E1) as [A B] | pd_oneshot _ _ _ _ _ _ = _ => destruct (One _ E1) as [A B] end;
         split; auto).
  - apply Same; [reflexivity|]. apply Ok_inj in E1. subst. apply eff_refl.
  - apply Same; [reflexivity|]. unfold pd_key in E1. bstep E1 k2 E2. apply Ok_inj in E1. subst k1.
    eapply eff_post with (b := k2); [|destruct (_ || _); now apply eff_same].
    destruct pressed.
    + eapply eff_post; [|apply clear_oneshot_eff, E2].
      eapply eff_post; [|apply send_key_eff]. eapply eff_post; [|apply update_mods_eff].
      destruct (k_ks k0 _); [apply send_key_eff|apply eff_refl].
    + apply Ok_inj in E2. subst. eapply eff_post; [apply send_key_eff|apply update_mods_eff].
  - apply Same; [reflexivity|]. destruct pressed; [|apply Ok_inj in E1; subst; apply eff_refl].
    apply (setlayout_eff _ _ _ Hk0 Hd E1).
  - apply Same; [reflexivity|]. destruct pressed; [|apply Ok_inj in E1; subst; apply eff_refl].
    apply (clear_eff _ _ Hk0 E1).
  - apply Same; [reflexivity|]. destruct pressed; [|apply Ok_inj in E1; subst; apply eff_refl].
    bstep E1 mm Em. bstep E1 k2 E2. apply Ok_inj in E1. subst.
    eapply eff_post; [apply (clear_eff _ _ Hk0 E2)|apply execute_macro_eff].
  - unfold hz, holds. fold (one l). bstep E1 ac Ea.
    destruct (nested_tame _ _ _ Hk0 Ea) as [Ta Ta']. destruct Hd as [Hd1 Hd2].
    assert (P1 : pending_kind ac = false) by (destruct Ta' as [->| ->]; auto).
    assert (P2 : is_overloadi ac = false) by (destruct Ta' as [->| ->]; auto).
    split; intros; subst pressed.
    + bstep E1 k2 E2. set (k3 := update_mods false k2 None 0) in *.
      assert (F3 : eff (- one l) k0 k3).
      { eapply eff_trans; [apply (deactivate_eff _ _ _ E2)|apply update_mods_eff|lia]. }
      clearbody k3. cbv zeta in E1. destruct (_ && _) in E1; [|apply Ok_inj in E1; subst; exact F3].
      assert (Hk3 : okc k3) by (unfold okc; rewrite (proj1 F3); exact Hk0).
      eapply eff_post; [exact F3| ].
      assert (G : forall k1, (k4 <- process_descriptor fuel k3 code ac dl true time ;;
                   process_descriptor fuel k4 code ac dl false time) = Ok k1 -> eff 0 k3 k1).
      { clear E1. intros k5 E5. bstep E5 k4 E4.
        pose proof (proj2 (IH _ _ _ _ _ _ _ Hk3 Ta E4) eq_refl P2 P1) as F4.
        assert (Hk4 : okc k4) by (unfold okc; rewrite (proj1 F4); exact Hk3).
        pose proof (proj1 (IH _ _ _ _ _ _ _ Hk4 Ta E5) eq_refl) as F5.
        eapply eff_trans; [exact F4|exact F5|lia]. }
      destruct ac; try (apply G; exact E1).
      bstep E1 mm Em. apply Ok_inj in E1. subst. apply execute_macro_eff.
    + bstep E1 k2 E2. apply Ok_inj in E1. subst.
      eapply eff_pre with (b := set_k_ovl_start time k0); [now apply eff_same|].
      eapply eff_trans; [apply (activate_eff _ _ _ _ E2)|apply update_mods_eff|lia].
  - split; [|discriminate]. intros ->. apply Ok_inj in E1. subst. apply eff_refl.
  - split; [|discriminate]. intros ->. apply Ok_inj in E1. subst. apply eff_refl.
  - split; [|discriminate]. intros ->. apply Ok_inj in E1. subst. apply eff_refl.
  - apply Same; [reflexivity|]. destruct pressed; [|apply Ok_inj in E1; subst; apply eff_refl].
    bstep E1 cm Em. bstep E1 k2 E2. apply Ok_inj in E1. subst.
    eapply eff_post; [|apply update_mods_eff].
    eapply eff_post with (b := emit (OCmd cm) k0); [now apply eff_same|apply (clear_oneshot_eff _ _ E2)].
  - split; [|discriminate]. intros ->. apply Ok_inj in E1. subst. apply eff_refl.
  - apply Same; [reflexivity|]. apply Ok_inj in E1. subst. now apply eff_same.
  - apply Same; [reflexivity|]. apply Ok_inj in E1. subst. now apply eff_same.
Qed.

(* ---- the actions of held keys ------------------------------------------------------- *)
Definition counts (x : N * desc) : bool := negb (fst x =? 0)%N && holds (snd x) i.
Definition hcount (l : list (N * desc)) : Z := Z.of_nat (length (filter counts l)).
Lemma holding_hcount k : Z.of_nat (holding k i) = hcount (cds (k_cache k)).
Proof.
  unfold holding, hcount, cds. f_equal. induction (k_cache k) as [|e c IH]; auto. cbn [map filter].
  unfold counts at 1. cbn [fst snd]. destruct (_ && _); cbn [length]; auto.
Qed.
Definition bz (b : bool) : Z := if b then 1%Z else 0%Z.
Lemma hcount_upd x y : forall l j, j < length l -> nth j l (0%N, DNone) = y ->
  hcount (upd j x l) = (hcount l - bz (counts y) + bz (counts x))%Z.
Proof.
  unfold hcount. induction l as [|z l IH]; intros j Hj Hy; [cbn in Hj; lia|]. destruct j as [|j]; cbn [upd filter].
  - cbn [nth] in Hy. subst. destruct (counts x), (counts y); cbn [length bz]; lia.
  - cbn [nth length] in *. assert (Hj' : j < length l) by lia. specialize (IH j Hj' Hy).
    destruct (counts z); cbn [length]; lia.
Qed.
Lemma counts_on code d : code <> 0%N -> bz (counts (code, d)) = hz d.
Proof. intros H. unfold counts, hz, bz. cbn [fst snd]. destruct (N.eqb_spec code 0); [congruence|]. reflexivity. Qed.

Definition at_entry (k : kbd) (j : nat) (code : N) (d : desc) : Prop :=
  j < length (k_cache k) /\ nth j (cds (k_cache k)) (0%N, DNone) = (code, d).
Lemma cds_length c : length (cds c) = length c.
Proof. apply map_length. Qed.
Lemma cds_nth c j : nth j (cds c) (0%N, DNone) = (ce_code (nth j c zero_ce), ce_d (nth j c zero_ce)).
Proof. unfold cds. change (0%N, DNone) with ((fun e => (ce_code e, ce_d e)) zero_ce). now rewrite map_nth. Qed.
Lemma find_unique c j code : uniq c -> j < length c -> ce_code (nth j c zero_ce) = code -> code <> 0%N ->
  cache_find c code 0 = Some j.
Proof.
  intros U Hj Hc Hz. destruct (cache_find c code 0) as [x|] eqn:E.
  - apply cache_find_at in E as [_ [E1 E2]]. rewrite Nat.sub_0_r in *. f_equal. apply U; auto; congruence.
  - exfalso. assert (G : forall l n, In (nth j c zero_ce) l -> cache_find l code n <> None).
    { induction l as [|e l IH]; intros n Hin; [destruct Hin|]. cbn [cache_find].
      destruct (N.eqb_spec (ce_code e) code); [discriminate|]. destruct Hin as [->|Hin]; [congruence|]. now apply IH. }
    apply (G c 0); auto. now apply nth_In.
Qed.

Definition pressed_as (k : kbd) (j : nat) (code : N) (k' : kbd) (d : desc) : Prop :=
  k_cfg k' = k_cfg k /\ cds (k_cache k') = upd j (code, d) (cds (k_cache k)) /\ adds (hz d) k k'
  /\ (k_pend k' = k_pend k \/ (p_code (k_pend k') = code /\ hz d = 0%Z)).
Lemma press_simple fuel k j code d0 d dl time k' : okc k -> tame_desc T K d -> is_overloadi d = false ->
  at_entry k j code d0 ->
  process_descriptor fuel k code d dl true time = Ok k' ->
  k_cfg k' = k_cfg k /\ cds (k_cache k') = cds (k_cache k) /\ adds (hz d) k k'
  /\ (k_pend k' = k_pend k \/ (p_code (k_pend k') = code /\ hz d = 0%Z)).
Proof.
  intros Hk Hd Ho He H. destruct (pending_kind d) eqn:Ep.
  - destruct fuel as [|fuel]; [discriminate|]. apply pd_unfold in H as [k0 [k1 [E0 [-> E1]]]].
    assert (F0 : eff 0 k k0) by (apply keys_eff; eapply pre_macro_only; eauto).
    assert (G : forall e b a1 a2, set_pending k0 code dl e b a1 a2 = Ok k1 ->
       k_cfg k1 = k_cfg k0 /\ k_cache k1 = k_cache k0 /\ k_ls k1 = k_ls k0 /\ p_code (k_pend k1) = code).
    { intros e b a1 a2 E. unfold set_pending in E. apply schedule_ok in E as ->. repeat split. }
    assert (X : k_cfg k1 = k_cfg k0 /\ k_cache k1 = k_cache k0 /\ k_ls k1 = k_ls k0 /\ p_code (k_pend k1) = code).
    { destruct d; try discriminate Ep; bstep E1 ac Ea; try (exact (G _ _ _ _ E1)). bstep E1 ac2 Ea2. exact (G _ _ _ _ E1). }
    destruct X as [X1 [X2 [X3 X4]]]. destruct F0 as [F1 [F2 [F3 [F4 [z F5]]]]].
    assert (Hh : hz d = 0%Z) by (destruct d; try discriminate Ep; reflexivity).
    kcbn. rewrite X1, X2, F1, F2, Hh. repeat split; auto; unfold small; kcbn; rewrite X3; auto. exists z. exact F5.
  - destruct (proj2 (pd_eff _ _ _ _ _ _ _ _ Hk Hd H) eq_refl Ho Ep) as [A [B [C D]]]. auto.
Qed.
Lemma press_as fuel k j code d dl time k' : okc k -> tame_desc T K d -> uniq (k_cache k) -> code <> 0%N ->
  at_entry k j code d ->
  process_descriptor fuel k code d dl true time = Ok k' -> exists d', pressed_as k j code k' d'.
Proof.
  intros Hk Hd U Hz He H. destruct (is_overloadi d) eqn:Eo.
  - destruct d; try discriminate Eo. destruct fuel as [|fuel]; [discriminate|].
    apply pd_unfold in H as [k0 [k1 [E0 [-> E1]]]].
    assert (F0 : eff 0 k k0) by (apply keys_eff; eapply pre_macro_only; eauto).
    assert (Hc0 : k_cache k0 = k_cache k). { cbn [pre_macro] in E0. apply Ok_inj in E0. now subst. }
    pose proof F0 as [F1 [F2 [F3 [F4 [z F5]]]]].
    assert (Hk0 : okc k0) by (unfold okc; rewrite F1; exact Hk).
    bstep E1 ac Ea. bstep E1 k2 E2. apply Ok_inj in E1. subst k1.
    assert (Ho : is_overloadi ac = false /\ tame_desc T K ac).
    { destruct Hd as [Hd1 Hd2]. destruct (_ <=? _)%Z in Ea;
        destruct (nested_tame _ _ _ Hk0 Ea) as [Ta [-> | ->]]; auto. }
    destruct Ho as [Ho Ta].
    assert (He0 : at_entry k0 j code (DOverloadI a1 a2 t)) by (unfold at_entry; rewrite Hc0; exact He).
    pose proof (press_simple _ _ _ _ _ _ _ _ _ Hk0 Ta Ho He0 E2) as [X1 [X2 [[X3 [y X4]] X5]]].
    assert (U2 : uniq (k_cache k2)). { eapply pd_uniq; [exact E2|]. now rewrite Hc0. }
    assert (E2' : cds (k_cache k2) = cds (k_cache k)) by (rewrite X2, Hc0; reflexivity).
    destruct He as [He1 He2]. 
    assert (L2 : length (k_cache k2) = length (k_cache k)) by (rewrite <- !cds_length; now rewrite E2').
    assert (N2 : nth j (cds (k_cache k2)) (0%N, DNone) = (code, DOverloadI a1 a2 t)) by (rewrite E2'; exact He2).
    rewrite cds_nth in N2. apply pair_equal_spec in N2 as [N2 N3].
    exists ac. unfold pressed_as, cache_replace_d. rewrite (find_unique _ j code U2); auto; [|lia].
    kcbn. rewrite X1, F1. repeat split.
    + unfold cds at 1. rewrite map_upd. cbn [ce_code ce_d]. rewrite N2. fold (cds (k_cache k2)). now rewrite E2'.
    + auto.
    + exists (z + y)%Z. kcbn. lia.
    + rewrite F3 in X5. exact X5.
  - exists d. pose proof (press_simple _ _ _ _ _ _ _ _ _ Hk Hd Eo He H) as [X1 [X2 [X3 X4]]].
    unfold pressed_as. rewrite X2. destruct He as [He1 He2]. rewrite <- He2, upd_nth. auto.
Qed.
(* ---- the invariant ------------------------------------------------------------------ *)
Definition bal (k : kbd) : Prop := small k /\ exists z, av (k_ls k i) = (hcount (cds (k_cache k)) + 256 * z)%Z.
Definition pend_in (k : kbd) : Prop :=
  p_code (k_pend k) <> 0%N -> exists j d, at_entry k j (p_code (k_pend k)) d /\ hz d = 0%Z.
Definition J (k : kbd) : Prop :=
  okc k /\ alld (tame_desc T K) k /\ uniq (k_cache k) /\ bal k /\ pend_in k.

Lemma tame_closed : closed (tame_desc T K).
Proof. split; intros; cbn in *; auto; contradiction. Qed.
Lemma tame_all c : tame T K c -> cfg_all (tame_desc T K) c.
Proof. intros H. split; [apply H|]. split; apply H. Qed.
Lemma J_cp k k' : eff 0 k k' -> k_cache k' = k_cache k -> frame k k' -> cp k k' -> J k -> J k'.
Proof.
  intros [E1 [E2 [E3 [E4 [z E5]]]]] Ec F C [J1 [J2 [J3 [[J4 [y J5]] J6]]]]. split; [|split; [|split; [|split; [|]]]].
  - unfold okc. now rewrite E1.
  - eapply alld_cp; eauto.
  - now rewrite Ec.
  - split; auto. exists (z + y)%Z. rewrite Ec. lia.
  - unfold pend_in, at_entry. rewrite E3, Ec. exact J6.
Qed.
Lemma expire_J k time k' : expire_oneshot k time = Ok k' -> J k -> J k'.
Proof.
  intros H. pose proof (expire_cp _ _ _ H) as [C Ec]. pose proof (expire_frame _ _ _ H) as F.
  apply J_cp; auto. unfold expire_oneshot in H. destruct (_ && _); [|apply Ok_inj in H; subst; apply eff_refl].
  bstep H k1 E1. apply Ok_inj in H. subst. eapply eff_post; [apply (clear_oneshot_eff _ _ E1)|apply update_mods_eff].
Qed.
Lemma run_macro_J k code time k' : run_active_macro k code time = Ok k' -> J k -> J k'.
Proof.
  intros H. pose proof (run_macro_cp _ _ _ _ H) as [C Ec]. pose proof (run_macro_frame _ _ _ _ H) as F.
  apply J_cp; auto. unfold run_active_macro in H.
  destruct (k_amacro k); [|apply Ok_inj in H; subst; apply eff_refl].
  destruct (negb _).
  - apply Ok_inj in H. subst. eapply eff_pre; [|apply update_mods_eff]. now apply eff_same.
  - destruct (_ <=? _)%Z; [|apply Ok_inj in H; subst; apply eff_refl].
    bstep H mm Em. eapply eff_post; [|apply (schedule_eff _ _ _ H)].
    eapply eff_post with (b := execute_macro k (k_amacro_layer k) mm); [apply execute_macro_eff|now apply eff_same].
Qed.

(* the key gets the entry (code, d) in slot j, which did not count before, and is
   pressed *)
Lemma enter_J k k1 j code d dl time fuel k' :
  okc k -> alld (tame_desc T K) k1 -> bal k -> tame_desc T K d -> code <> 0%N ->
  k_cfg k1 = k_cfg k -> k_ls k1 = k_ls k -> uniq (k_cache k1) ->
  j < length (k_cache k) -> bz (counts (nth j (cds (k_cache k)) (0%N, DNone))) = 0%Z ->
  cds (k_cache k1) = upd j (code, d) (cds (k_cache k)) ->
  p_code (k_pend k1) = 0%N ->
  process_descriptor fuel k1 code d dl true time = Ok k' -> J k'.
Proof.
  intros Hk A1 [B1 [y B2]] Hd Hz Ec El U Hj Hn Hc Hp H.
  assert (Hk1 : okc k1) by (unfold okc; rewrite Ec; exact Hk).
  assert (L1 : length (k_cache k1) = length (k_cache k)).
  { rewrite <- !cds_length, Hc. apply upd_length. }
  assert (He : at_entry k1 j code d).
  { split; [lia|]. rewrite Hc. apply nth_upd_same. now rewrite cds_length. }
  destruct (press_as _ _ _ _ _ _ _ _ Hk1 Hd U Hz He H) as [d' [P1 [P2 [[P3 [z P4]] P5]]]].
  assert (L2 : length (k_cache k') = length (k_cache k)).
  { rewrite <- (cds_length (k_cache k')), P2, upd_length, cds_length. exact L1. }
  split; [|split; [|split; [|split; [|]]]].
  - unfold okc. now rewrite P1.
  - eapply pd_alld; eauto using tame_closed.
  - eapply pd_uniq; eauto.
  - split.
    + apply P3. unfold small. rewrite El. exact B1.
    + exists (y + z)%Z. rewrite P4, El, B2, P2.
      rewrite (hcount_upd (code, d') (code, d)) by (try rewrite cds_length; try apply He; lia).
      rewrite Hc, (hcount_upd (code, d) _ _ j) by (try rewrite cds_length; auto).
      rewrite !counts_on by exact Hz. lia.
  - intros Hq. destruct P5 as [P5|[P5 P6]]; [rewrite P5 in Hq; congruence|].
    exists j, d'. split; auto. rewrite P5. split; [lia|]. rewrite P2. apply nth_upd_same. rewrite cds_length. lia.
Qed.
Lemma cds_upd j e c : cds (upd j e c) = upd j (ce_code e, ce_d e) (cds c).
Proof. unfold cds. now rewrite map_upd. Qed.

Lemma handle_key_J k code pressed time k' : handle_key k code pressed time = Ok k' -> passed k code pressed ->
  J k -> J k'.
Proof.
  intros H Hps Jk. pose proof Jk as [J1 [J2 [J3 [J4 J5]]]]. unfold handle_key in H.
  destruct (N.eqb_spec code 0) as [Hz|Hz]; [apply Ok_inj in H; now subst|].
  destruct pressed.
  - assert (Hp : p_code (k_pend k) = 0%N). { destruct Hps as [Hps|[_ [Hps _]]]; [auto|discriminate]. }
    destruct (cache_get k code) eqn:Eg; [apply Ok_inj in H; now subst|].
    destruct (lookup_descriptor k code) as [d dl] eqn:El.
    assert (Hd : tame_desc T K d) by (eapply lookup_alld; eauto using tame_closed).
    destruct (cache_set _ _ _) as [k1|] eqn:E; [|apply Ok_inj in H; now subst].
    pose proof (cache_set_alld (tame_desc T K) _ _ _ _ E) as A1. pose proof (cache_set_uniq _ _ _ _ E J3) as U1.
    apply cache_set_spec in E as [j [e [-> [Hj [Hc ->]]]]]. cbn [ce_d ce_dl ce_layer] in *.
    match type of H with do_desc ?kx _ _ _ _ _ = _ => eapply (enter_J k kx j code d dl time) end; [exact J1| |exact J4|exact Hd|exact Hz|reflexivity|reflexivity|exact U1|exact Hj| | |exact Hp|exact H].
    + apply A1; auto. now intros e [= <-].
    + rewrite cds_nth. unfold counts. cbn [fst snd]. destruct Hc as [Hc|[Hc _]]; [|rewrite Hc; reflexivity].
      exfalso. unfold cache_get in Eg. rewrite (find_unique _ j code) in Eg; auto. discriminate.
    + kcbn. rewrite cds_upd. reflexivity.
  - destruct (cache_get k code) as [j|] eqn:Eg; [|apply Ok_inj in H; now subst].
    apply cache_find_at in Eg as [_ [Eg1 Eg2]]. rewrite Nat.sub_0_r in *.
    destruct (cache_set _ _ _) as [k1|] eqn:E; [|apply Ok_inj in H; now subst].
    pose proof (cache_set_alld (tame_desc T K) _ _ _ _ E) as A1. pose proof (cache_set_uniq _ _ _ _ E J3) as U1.
    apply cache_set_spec in E as [x [e [-> [Hx [Hc ->]]]]].
    assert (Ex : x = j).
    { destruct Hc as [Hc|[_ Hc]]; [|exfalso; apply (Hc _ (nth_In _ zero_ce Eg1) Eg2)]. apply J3; auto; congruence. }
    subst x. clear Hc. unfold cache_nth in H. set (d := ce_d (nth j (k_cache k) zero_ce)) in *.
    match type of H with do_desc ?kx _ _ _ _ _ = _ => set (k1 := kx) in * end.
    assert (A2 : alld (tame_desc T K) k1) by (apply A1; [intros e [=]|exact J2]).
    assert (Td : tame_desc T K d). { destruct J2 as [_ [J2 _]]. apply J2, in_map, nth_In, Eg1. }
    assert (Ok1 : okc k1) by exact J1.
    unfold do_desc in H. pose proof (proj1 (pd_eff _ _ _ _ _ _ _ _ Ok1 Td H) eq_refl) as [F1 [F2 [F3 [F4 [z F5]]]]].
    destruct J4 as [J4 [y J4']].
    assert (Hc1 : cds (k_cache k1) = upd j (0%N, d) (cds (k_cache k))).
    { subst k1. kcbn. rewrite cds_upd. reflexivity. }
    split; [|split; [|split; [|split; [split|]]]].
    + unfold okc. now rewrite F1.
    + eapply pd_alld; eauto using tame_closed.
    + eapply pd_uniq; eauto.
    + apply F4. exact J4.
    + exists (y + z)%Z. rewrite F5, F2, Hc1.
      rewrite (hcount_upd (0%N, d) (code, d)); [|now rewrite cds_length|now rewrite cds_nth, Eg2].
      rewrite counts_on by exact Hz. change (k_ls k1 i) with (k_ls k i). rewrite J4'.
      change (bz (counts (0%N, d))) with 0%Z. lia.
    + intros Hq. rewrite F3 in Hq. change (k_pend k1) with (k_pend k) in Hq.
      destruct (J5 Hq) as [j2 [d2 [[G1 G2] G3]]]. exists j2, d2. split; auto. rewrite F3.
      change (k_pend k1) with (k_pend k).
      assert (Hne : j2 <> j).
      { intros ->. rewrite cds_nth, Eg2 in G2. apply pair_equal_spec in G2 as [G2 _].
        destruct Hps as [Hps|[_ [_ [Hps _]]]]; congruence. }
      assert (L : length (k_cache k') = length (k_cache k)).
      { rewrite <- !cds_length, F2, Hc1. apply upd_length. }
      split; [lia|]. rewrite F2, Hc1. rewrite nth_upd_other by auto. exact G2.
Qed.
Lemma decide_J k q a time k' : J k -> p_code (k_pend k) <> 0%N ->
  a = p_a1 (k_pend k) \/ a = p_a2 (k_pend k) ->
  decide k (set_p_queue q (k_pend k)) a time = Ok k' -> J k'.
Proof.
  intros [J1 [J2 [J3 [J4 J5]]]] Hz Ha H. unfold decide in H. cbn [p_code p_dl set_p_queue] in H.
  set (k2 := set_k_pend (set_p_code 0%N (set_p_queue [] (set_p_queue q (k_pend k)))) k) in *.
  assert (Td : tame_desc T K a). { destruct J2 as [_ [_ [_ [X1 X2]]]]. destruct Ha as [->| ->]; auto. }
  assert (A2 : alld (tame_desc T K) k2) by exact J2.
  destruct (J5 Hz) as [j [d [[G1 G2] G3]]].
  assert (Hc : ce_code (nth j (k_cache k) zero_ce) = p_code (k_pend k)).
  { rewrite cds_nth in G2. now apply pair_equal_spec in G2. }
  destruct (cache_set k2 _ _) as [k3|] eqn:E.
  - pose proof (cache_set_alld (tame_desc T K) _ _ _ _ E) as A3. pose proof (cache_set_uniq _ _ _ _ E J3) as U3.
    apply cache_set_spec in E as [x [e [-> [Hx [Hcx ->]]]]]. change (k_cache k2) with (k_cache k) in *.
    assert (Ex : x = j).
    { destruct Hcx as [Hcx|[_ Hcx]]; [|exfalso; apply (Hcx _ (nth_In _ zero_ce G1) Hc)]. apply J3; auto; congruence. }
    subst x. clear Hcx. cbn [ce_d ce_dl ce_layer] in *. unfold do_desc in H.
    match type of H with process_descriptor _ ?kx _ _ _ _ _ = _ => eapply (enter_J k kx j (p_code (k_pend k)) a) end;
      [exact J1| |exact J4|exact Td|exact Hz|reflexivity|reflexivity|exact U3|exact Hx| | |reflexivity|exact H].
    + apply A3; auto. now intros e [= <-].
    + rewrite G2, counts_on by exact Hz. exact G3.
    + kcbn. rewrite cds_upd. reflexivity.
  - exfalso. unfold cache_set in E. change (k_cache k2) with (k_cache k) in E.
    destruct (cache_slot _ _ _ _) eqn:Es; [discriminate E|]. clear - Es G1 Hc.
    assert (X : forall l n s, In (nth j (k_cache k) zero_ce) l -> cache_slot l (p_code (k_pend k)) n s <> None).
    { induction l as [|e l IH]; intros n s Hin; [destruct Hin|]. cbn [cache_slot].
      destruct (N.eqb_spec (ce_code e) (p_code (k_pend k))); [discriminate|].
      destruct Hin as [->|Hin]; [congruence|]. now apply IH. }
    apply (X (k_cache k) 0 None); auto. now apply nth_In.
Qed.
Lemma chord_J k k' : chord_changed k k' -> J k -> J k'.
Proof.
  intros C [J1 [J2 [J3 [J4 J5]]]]. pose proof (chord_alld _ tame_closed _ _ C J2) as A.
  destruct C as [q [acs [ts [-> _]]]]. exact (conj J1 (conj A (conj J3 (conj J4 J5)))).
Qed.
Lemma pending_J k code pressed time r : J k -> pending_plan k code pressed time = Ok r ->
  pplan_ok J (fun _ => True) r.
Proof.
  intros Jk E. unfold pending_plan in E.
  destruct (N.eqb_spec (p_code (k_pend k)) 0) as [Hz|Hz]; [apply Ok_inj in E; now subst|].
  destruct (_ && _) in E; [discriminate E|]. destruct (_ && _) in E; [apply Ok_inj in E; now subst|].
  set (q1 := if (code =? 0)%N then p_queue (k_pend k) else p_queue (k_pend k) ++ [mkKev code pressed time]) in *.
  assert (Ep : (if (code =? 0)%N then k_pend k
          else set_p_queue (p_queue (k_pend k) ++ [mkKev code pressed time]) (k_pend k))
          = set_p_queue q1 (k_pend k)).
  { subst q1. destruct (code =? 0)%N; auto. now destruct (k_pend k). }
  rewrite Ep in E. destruct (has_op _) eqn:Eo.
  - bstep E k3 E3. apply Ok_inj in E. subst r. split; [|apply Forall_forall; auto].
    eapply decide_J; [exact Jk|exact Hz| |exact E3].
    apply pending_action_src in Eo as [Eo|Eo]; rewrite Eo; auto.
  - apply Ok_inj in E. subst r. exact Jk.
Qed.
Lemma events_J fuel k evs k' t : J k -> kbd_process_events fuel k evs = Ok (k', t) -> J k'.
Proof.
  intros Jk H. apply (liftok_events J (fun _ => True)) with (fuel := fuel) (k := k) (evs := evs) (t := t); auto.
  - intros k0 code pressed time r H0 _ E. destruct r as [k1 pl].
    apply chord_plan_shape in E as [E _]. pose proof (chord_J _ _ E H0) as J1.
    destruct pl; cbn [plan_fine]; auto. split; auto. split; auto. intros. apply Forall_forall; auto.
  - intros k0 code pressed time r H0 _ E. eapply pending_J; eauto.
  - intros k0 code pressed time k1 H0 _ Hp Hr. unfold rest_step in Hr. bstep Hr k3 E3. bstep Hr k4 E4.
    pose proof (expire_J _ _ _ E3 H0) as J3. pose proof (run_macro_J _ _ _ _ E4 J3) as J4.
    eapply handle_key_J; [exact Hr| |exact J4].
    assert (Ep : k_pend k4 = k_pend k0).
    { apply expire_cp in E3 as [[E3 _] _]. apply run_macro_cp in E4 as [[E4 _] _]. congruence. }
    unfold passed. now rewrite Ep.
  - apply Forall_forall; auto.
Qed.
Lemma init_J c clk : tame T K c -> J (new_keyboard c clk).
Proof.
  intros Hc. split; [exact Hc|]. split; [|split; [|split]].
  - split; [now apply tame_all|]. cbn [new_keyboard k_cache k_achords k_pend p_a1 p_a2].
    repeat split; try exact I.
    + intros d Hd. apply in_map_iff in Hd as [e [<- Hd]]. apply repeat_spec in Hd. subst. exact I.
    + intros ac Hac. apply repeat_spec in Hac. subst. exact I.
  - apply uniq_zero.
  - assert (X : k_ls (new_keyboard c clk) i = zero_lst).
    { unfold new_keyboard. cbv zeta. kcbn.
      assert (Z : nupd (fun _ => zero_lst) 0 (mkLst 0 1 false 0) i = zero_lst).
      { unfold nupd. destruct (Nat.eqb_spec i 0) as [E|]; auto. exfalso. pose proof (tm_main _ _ _ Hc). congruence. }
      destruct (c_default_layout c) as [|x name]; [exact Z|].
      destruct (find_layout (c_layers c) (x :: name) 0) as [m|] eqn:Ef; [|exact Z].
      unfold nupd at 1. destruct (Nat.eqb_spec i m) as [E|]; [|exact Z]. exfalso.
      assert (G : forall l n m, find_layout l (x :: name) n = Some m -> n <= m /\ ly_type (nth (m - n) l zero_layer) = LLayout).
      { induction l as [|y l IH]; intros n m0 H0; cbn [find_layout] in H0; [discriminate|].
        destruct (_ && _) eqn:Eb in H0.
        - injection H0 as <-. split; auto. rewrite Nat.sub_diag. cbn [nth]. apply andb_true_iff in Eb as [Eb _].
          now apply is_layout_spec.
        - apply IH in H0 as [H1 H2]. split; [lia|]. replace (m0 - n) with (S (m0 - S n)) by lia. exact H2. }
      apply G in Ef as [_ Ef]. rewrite Nat.sub_0_r, <- E in Ef. apply (tm_layouts _ _ _ Hc) in Ef. congruence. }
    unfold bal, small. rewrite X. split; [cbn; lia|]. exists 0%Z. reflexivity.
  - intros Hq. exfalso. apply Hq. reflexivity.
Qed.
Lemma reach_J c k : reach (tame T K) c k -> J k.
Proof.
  intros H. induction H as [clk Hk Hg|k fuel evs k' t Hr IH H|k exp k' ok Hr IH H Hg|k k' Hr IH H].
  - now apply init_J.
  - eapply events_J; eauto.
  - apply kbd_eval_shape in H as [c' ->]. destruct IH as [J1 [[_ J2] J3]].
    exact (conj Hg (conj (conj (tame_all _ Hg) J2) J3)).
  - destruct H; exact IH.
Qed.
Lemma reach_count c k : reach (tame T K) c k -> count k i = (outstanding k i mod 256)%N.
Proof.
  intros H. apply reach_J in H as [_ [_ [_ [[B1 [z B2]] _]]]].
  rewrite <- holding_hcount in B2. unfold count, outstanding, toggled, oneshots, small, av in *.
  set (o := ((if l_toggled (k_ls k i) then 1 else 0) + l_depth (k_ls k i) + N.of_nat (holding k i))%N).
  assert (E : (Z.of_N o = Z.of_N (l_active (k_ls k i)) - 256 * z)%Z).
  { subst o. destruct (l_toggled (k_ls k i)); lia. }
  apply N2Z.inj. rewrite N2Z.inj_mod. change (Z.of_N 256) with 256%Z. rewrite E.
  replace (Z.of_N (l_active (k_ls k i)) - 256 * z)%Z with (Z.of_N (l_active (k_ls k i)) + (- z) * 256)%Z by lia.
  rewrite Z.mod_add by lia. symmetry. apply Z.mod_small. lia.
Qed.
End Account.
