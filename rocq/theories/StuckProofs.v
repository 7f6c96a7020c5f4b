(* No key stays pressed: invariant of the engine for neat configurations (C25). *)
From Verif Require Import Base Lib Keys Types MacroExec Kbd Config Steps Hist SpecTrace SpecMods SpecLookup
  SpecHist SpecActions SpecKept SpecAccount SpecNotation SpecStuck TraceProofs ModsProofs LookupProofs Engine SpecWf Wf ActProofs StepProofs OneProofs
  CacheProofs Inv ClassInv ParseWf WfHist KeptProofs LiftOk Account Outside MacroProofs.

Definition plainc (c : N) : Prop := forall b, ~ is_modifier b c.
Definition real (c : N) : Prop := c <> K_NOOP /\ c <> K_EXTERNAL_MOUSE.
(* some active layer has the modifier *)
Definition lit (k : kbd) (b : N) : Prop := exists i, layer_active k i /\ in_set b (layer_mods k i).
Definition clean (k : kbd) : Prop := forall b c, is_modifier b c -> k_ks k c = true -> lit k b.
Definition tid (k : kbd) : Prop := clean k \/ k_amacro k <> None.

Lemma lit_same k k' b : k_cfg k' = k_cfg k -> k_ls k' = k_ls k -> lit k b -> lit k' b.
Proof. unfold lit, layer_active, layer_mods. intros -> ->. auto. Qed.
Lemma active_mods_lit k b : hasmod b (active_mods k None 0) = true <-> lit k b.
Proof.
  unfold active_mods. rewrite active_mods_gen. unfold lit. split.
  - intros [H|[i [H1 [H2 [H3 H4]]]]]; [unfold hasmod in H; rewrite N.land_0_r in H; discriminate|].
    exists i. split; [now apply layer_active_spec|now apply hasmod_in_set].
  - intros [i [H1 H2]]. right. exists i. apply layer_active_spec in H1 as [H1 H3]. repeat split; auto.
    now apply hasmod_in_set.
Qed.
Lemma keys_only_lit k k' b : keys_only k k' -> lit k' b <-> lit k b.
Proof. intros [l [s [o ->]]]. reflexivity. Qed.
Lemma update_mods_clean inh k : clean (update_mods inh k None 0).
Proof.
  intros b c Hm Hd. apply (keys_only_lit k); [apply update_mods_only|].
  unfold update_mods in Hd. rewrite (set_mods_modifier _ _ _ _ _ Hm) in Hd. now apply active_mods_lit.
Qed.
Lemma update_mods_clean_dl inh k dl : clean (update_mods inh k (Some dl) 0).
Proof.
  intros b c Hm Hd. apply (keys_only_lit k); [apply update_mods_only|].
  unfold update_mods in Hd. rewrite (set_mods_modifier _ _ _ _ _ Hm) in Hd.
  apply active_mods_wanted in Hd as [Hd|[i [H1 [_ H2]]]]; [|exists i; auto].
  exfalso. apply Hd. now rewrite N.land_0_r.
Qed.
Lemma update_mods_plain inh k e m c : plainc c -> k_ks (update_mods inh k e m) c = k_ks k c.
Proof. intros H. now apply set_mods_other. Qed.

Section Stuck.
Variable T : nat -> desc.
Variable K : nat -> bool.
Variable M : nat -> N.
Variable tg : bool.

Definition nok (k : kbd) : Prop := neat T K M tg (k_cfg k).
(* pending oneshots of a configuration that also toggles have no modifiers *)
Definition odd (k : kbd) : Prop := tg = true -> forall i, l_depth (k_ls k i) <> 0%N -> M i = 0%N.

(* what an action may do to keys: only those in P are newly pressed; am says whether a
   macro may become active *)
Definition fx (P : N -> Prop) (am : bool) (k k' : kbd) : Prop :=
  k_cfg k' = k_cfg k
  /\ (forall c, plainc c -> k_ks k' c = true -> k_ks k c = true \/ (real c /\ P c))
  /\ (am = false -> k_amacro k' <> None -> k_amacro k <> None)
  /\ (odd k -> odd k').
Definition none : N -> Prop := fun _ => False.
Definition calmfx (k k' : kbd) : Prop := fx none false k k' /\ (tid k -> tid k').

Lemma fx_same P am k k' : k_cfg k' = k_cfg k -> k_ks k' = k_ks k -> k_amacro k' = k_amacro k -> k_ls k' = k_ls k ->
  fx P am k k'.
Proof. intros H1 H2 H3 H4. unfold fx, odd. rewrite H1, H2, H3, H4. repeat split; auto. Qed.
Lemma fx_trans P am a b c : fx P am a b -> fx P am b c -> fx P am a c.
Proof.
  intros [A1 [A2 [A3 A4]]] [B1 [B2 [B3 B4]]]. split; [congruence|]. split; [|split]; auto.
  intros x Hx H. destruct (B2 x Hx H) as [H1|H1]; auto.
Qed.
Lemma fx_weak (P Q : N -> Prop) am am' k k' : (forall c, P c -> Q c) -> (am = true -> am' = true) -> fx P am k k' -> fx Q am' k k'.
Proof.
  intros H H' [A1 [A2 [A3 A4]]]. split; [auto|]. split; [|split]; auto.
  - intros c Hc Hd. destruct (A2 c Hc Hd) as [X|[X Y]]; auto.
  - intros ->. apply A3. destruct am; auto. symmetry. now apply H'.
Qed.
Lemma fx_none P am k k' : fx none false k k' -> fx P am k k'.
Proof. apply fx_weak; [intros c []|discriminate]. Qed.
Lemma calm_same k k' : k_cfg k' = k_cfg k -> k_ks k' = k_ks k -> k_amacro k' = k_amacro k -> k_ls k' = k_ls k -> calmfx k k'.
Proof.
  intros H1 H2 H3 H4. split; [now apply fx_same|]. unfold tid, clean. rewrite H2, H3. intros [H|H]; [left|auto].
  intros b c Hm Hd. eapply lit_same; eauto.
Qed.
Lemma calm_refl k : calmfx k k. Proof. now apply calm_same. Qed.
Lemma calm_trans a b c : calmfx a b -> calmfx b c -> calmfx a c.
Proof. intros [A1 A2] [B1 B2]. split; auto. eapply fx_trans; eauto. Qed.
Lemma calm_clean k k' : fx none false k k' -> clean k' -> calmfx k k'.
Proof. intros H C. split; auto. intros _. now left. Qed.
Lemma calm_reset k k' : fx none false k k' -> clean k' -> calmfx k k'.
Proof. apply calm_clean. Qed.

Lemma keys_fx P am k k' : keys_only k k' ->
  (forall c, plainc c -> k_ks k' c = true -> k_ks k c = true \/ (real c /\ P c)) -> fx P am k k'.
Proof. intros [l [s [o ->]]] H. split; [reflexivity|]. split; [exact H|]. split; auto. Qed.
Lemma update_mods_fx P am inh k e m : fx P am k (update_mods inh k e m).
Proof. apply keys_fx; [apply update_mods_only|]. intros c Hc H. left. now rewrite update_mods_plain in H. Qed.
Lemma press_fx k c : fx (eq c) false k (send_key k c true).
Proof.
  apply keys_fx; [apply send_key_only|]. intros x Hx H.
  destruct (N.eqb_spec c K_NOOP) as [E|E]; [rewrite send_key_noop in H; auto|].
  destruct (N.eqb_spec c K_EXTERNAL_MOUSE) as [E'|E']; [rewrite send_key_noop in H; auto|].
  rewrite send_key_ks in H by auto. destruct (N.eqb_spec x c) as [->|]; auto. right. repeat split; auto.
Qed.
Lemma release_fx k c : fx none false k (send_key k c false).
Proof.
  apply keys_fx; [apply send_key_only|]. intros x Hx H. left.
  destruct (N.eqb_spec c K_NOOP) as [E|E]; [rewrite send_key_noop in H; auto|].
  destruct (N.eqb_spec c K_EXTERNAL_MOUSE) as [E'|E']; [rewrite send_key_noop in H; auto|].
  rewrite send_key_ks in H by auto. destruct (N.eqb_spec x c) as [->|]; auto. discriminate.
Qed.
Lemma execute_macro_fx k dl m : fx none false k (execute_macro k dl m).
Proof.
  unfold execute_macro.
  assert (G : fx none false k (emits (macro_execute m (c_macro_seq_timeout (k_cfg k))) (update_mods false k (Some dl) 0))).
  { eapply fx_trans; [apply (update_mods_fx none false)|]. now apply fx_same. }
  assert (S : forall k1 c, fx none false k1 (send_key (send_key k1 c true) c false)).
  { intros k1 c. apply keys_fx.
    { eapply keys_only_trans; apply send_key_only. }
    intros x Hx H. left.
    destruct (N.eqb_spec c K_NOOP) as [E|E]; [rewrite !send_key_noop in H; auto|].
    destruct (N.eqb_spec c K_EXTERNAL_MOUSE) as [E'|E']; [rewrite !send_key_noop in H; auto|].
    rewrite !send_key_ks in H by auto. destruct (N.eqb_spec x c) as [->|]; auto. discriminate. }
  destruct m as [|[[] data] [|y r]]; try exact G.
  cbv zeta. eapply fx_trans; [apply (update_mods_fx none false)|apply S].
Qed.
Lemma ls_fx P am k k' : k_cfg k' = k_cfg k -> k_ks k' = k_ks k -> (k_amacro k' = k_amacro k \/ k_amacro k' = None) ->
  (forall i, l_depth (k_ls k' i) <> 0%N -> l_depth (k_ls k i) <> 0%N) -> fx P am k k'.
Proof.
  intros H1 H2 H3 H4. split; auto. split; [|split].
  - intros c _. rewrite H2. auto.
  - intros _. destruct H3 as [-> | ->]; auto.
  - intros H X i Hi. apply H; auto.
Qed.
Lemma activate_fx P am k code i k' : activate_layer k code i = Ok k' -> fx P am k k'.
Proof.
  intros H. apply activate_ok in H as [b ->]. apply ls_fx; auto. intros j. kcbn. unfold nupd.
  destruct (Nat.eqb_spec j i) as [->|]; auto.
Qed.
Lemma deactivate_fx P am k i k' : deactivate_layer k i = Ok k' -> fx P am k k'.
Proof.
  intros H. apply deactivate_ok in H as [_ [b ->]]. apply ls_fx; auto. intros j. kcbn. unfold nupd.
  destruct (Nat.eqb_spec j i) as [->|]; auto.
Qed.
Lemma clear_oneshot_fx P am k k' : clear_oneshot k = Ok k' -> fx P am k k'.
Proof.
  intros H. apply clear_oneshot_ok in H as [ls [ns [-> [_ [H1 H2]]]]]. apply ls_fx; auto. intros j. kcbn.
  destruct (Nat.lt_ge_cases j (nlayers k)) as [L|L]; [|now rewrite H2].
  destruct (H1 j L) as [-> _]. unfold cleared. cbn [l_depth]. congruence.
Qed.
Lemma clear_oneshot_clean k k' : nok k -> tg = true -> odd k -> clear_oneshot k = Ok k' -> clean k -> clean k'.
Proof.
  intros Hk Ht Ho H C b c Hm Hd. apply clear_oneshot_ok in H as [ls [ns [-> [_ [H1 H2]]]]].
  destruct (C b c Hm Hd) as [i [[I1 I2] I3]]. exists i. split; [split; [exact I1|]|exact I3]. kcbn.
  destruct (H1 i I1) as [-> _]. unfold cleared. cbn [l_active].
  assert (Hz : l_depth (k_ls k i) = 0%N).
  { destruct (N.eq_dec (l_depth (k_ls k i)) 0) as [E|E]; auto. exfalso. apply I3. unfold layer_mods.
    rewrite (nt_mods _ _ _ _ _ Hk), (Ho Ht i E). apply N.land_0_r. }
  rewrite Hz. lia.
Qed.
Lemma reset_fx k : fx none false k (reset_keystate k).
Proof.
  destruct (reset_keystate_grow k) as [l [s [o [H _]]]]. 
  apply keys_fx; [exists l, s, (o ++ k_out k); exact H|]. intros c _ Hd. left. revert Hd.
  unfold reset_keystate.
  assert (G : forall l k, k_ks (fold_left reset_key l k) c = true -> k_ks k c = true).
  { clear. induction l as [|x l IH]; intros k H; auto. apply IH in H. unfold reset_key in H.
    destruct (k_ks k (N.of_nat x)); auto. revert H. kcbn. unfold fupd. destruct (_ =? _)%N; auto. discriminate. }
  apply G.
Qed.
Lemma reset_clean k : clean (reset_keystate k).
Proof.
  intros b c Hm Hd. rewrite reset_keystate_ks in Hd; [discriminate|]. destruct Hm; reflexivity.
Qed.
Lemma clear_fx k k' : clear k = Ok k' -> fx none false k k' /\ forall b c, is_modifier b c -> k_ks k' c = false.
Proof.
  intros H. apply clear_ok in H as [ls [ns [-> [_ [H1 H2]]]]]. split.
  - eapply fx_trans; [|apply reset_fx]. apply ls_fx; auto. intros j. kcbn.
    destruct (Nat.lt_ge_cases j (nlayers k)) as [L|L]; [|now rewrite H2].
    destruct (H1 j L) as [_ [Hn Hy]]. intros Hd. exfalso. apply Hd. clear Hd.
    destruct (Nat.eq_dec j 0) as [E|E]; [rewrite Hy; auto|].
    destruct (is_layout (ly_type (layer_at k j))) eqn:El; [rewrite Hy; auto|].
    destruct (Hn E eq_refl) as [-> _]. unfold untoggled, cleared. destruct (l_toggled _); reflexivity.
  - intros b c Hm. apply reset_keystate_ks. destruct Hm; reflexivity.
Qed.
Lemma drop_layouts_fx : forall l k, fx none false k (fold_left drop_layout l k) /\ k_ks (fold_left drop_layout l k) = k_ks k.
Proof.
  induction l as [|x l IH]; intros k; cbn [fold_left]; [split; [now apply fx_same|auto]|].
  destruct (IH (drop_layout k x)) as [A B].
  assert (X : fx none false k (drop_layout k x) /\ k_ks (drop_layout k x) = k_ks k).
  { unfold drop_layout. destruct (is_layout _); [|split; [now apply fx_same|auto]]. split; [|auto].
    apply ls_fx; auto. intros j. kcbn. unfold nupd. destruct (Nat.eqb_spec j x) as [->|]; auto. }
  destruct X as [X Y]. split; [eapply fx_trans; eauto|congruence].
Qed.
Lemma setlayout_fx k j k' : setlayout k j = Ok k' -> fx none false k k' /\ forall b c, is_modifier b c -> k_ks k' c = false.
Proof.
  intros H. unfold setlayout in H. bstep H u Eu. bstep H k1 E1. apply Ok_inj in H. subst k'.
  destruct (clear_fx _ _ E1) as [F1 F2].
  destruct (drop_layouts_fx (seq 1 (nlayers k1 - 1)) k1) as [D1 D2].
  set (k2 := fold_left drop_layout (seq 1 (nlayers k1 - 1)) k1) in *. clearbody k2. split.
  - eapply fx_trans; [exact F1|]. eapply fx_trans; [exact D1|].
    destruct (Nat.eqb j 0); apply ls_fx; auto. intros i. kcbn. unfold nupd. destruct (Nat.eqb_spec i j) as [->|]; auto.
  - intros b c Hm. destruct (Nat.eqb j 0); kcbn; rewrite D2; eauto.
Qed.
Lemma up_clean k : (forall b c, is_modifier b c -> k_ks k c = false) -> clean k.
Proof. intros H b c Hm Hd. rewrite (H b c Hm) in Hd. discriminate. Qed.
Lemma schedule_fx P am k t k' : schedule_timeout k t = Ok k' -> fx P am k k'.
Proof. intros H. apply schedule_ok in H as ->. now apply fx_same. Qed.
Lemma nok_fx P am k k' : fx P am k k' -> nok k -> nok k'.
Proof. intros [H _]. unfold nok. now rewrite H. Qed.

Definition good (d : desc) : Prop := tame_desc T K d /\ neat_desc T M tg d.
Lemma nested_good k a x : nok k -> desc_at k a = Ok x -> good x /\ (x = DNone \/ x = T a).
Proof.
  intros H Hx. split.
  - apply desc_at_in in Hx as [->|Hx]; [split; exact I|]. split; [now apply (tm_descs _ _ _ (nt_tame _ _ _ _ _ H))|].
    now apply (nt_descs _ _ _ _ _ H).
  - exact (proj2 (nested_tame T K _ _ _ (nt_tame _ _ _ _ _ H) Hx)).
Qed.

(* the effect of pressing d *)
Definition press_effect (d : desc) (k k' : kbd) : Prop :=
  match d with
  | DKey c _ => fx (eq c) false k k'
  | DMacro _ | DMacro2 _ _ _ => fx none true k k' /\ k_amacro k' <> None
  | _ => calmfx k k'
  end.
Lemma pd_fx : forall fuel k code d dl pressed time k',
  nok k -> odd k -> good d ->
  process_descriptor fuel k code d dl pressed time = Ok k' ->
  (pressed = false -> calmfx k k'
     /\ (forall c m, d = DKey c m -> clean k' /\ (plainc c -> real c -> k_ks k' c = false)))
  /\ (pressed = true -> is_overloadi d = false -> press_effect d k k').
Proof.
  induction fuel as [|fuel IH]; intros k code d dl pressed time k' Hk Ho Hd H; [discriminate|].
  apply pd_unfold in H as [k0 [k1 [E0 [-> E1]]]].
  assert (Rel : pressed = false -> k0 = k).
  { intros ->. unfold pre_macro in E0. apply Ok_inj in E0. auto. }
  assert (F0 : fx none false k k0).
  { unfold pre_macro in E0. destruct pressed; [|apply Ok_inj in E0; subst; now apply fx_same].
    destruct d; try (apply Ok_inj in E0; subst; now apply fx_same); bstep E0 mm Em; apply Ok_inj in E0; subst;
      apply execute_macro_fx. }
  assert (Hk0 : nok k0) by (eapply nok_fx; eauto).
  assert (Ho0 : odd k0) by (apply F0; exact Ho).
  (* the last step of a press *)
  assert (L1 : forall P am, fx P am k0 k1 -> fx P am k (set_k_last_code code k1)).
  { intros P am F. eapply fx_trans; [apply fx_none, F0|]. eapply fx_trans; [exact F|now apply fx_same]. }
  assert (L2 : fx none false k0 k1 -> clean k1 -> calmfx k (set_k_last_code code k1)).
  { intros F C. apply calm_clean; [now apply L1|]. exact C. }
  assert (L3 : k0 = k -> calmfx k0 k1 -> calmfx k (set_k_last_code code k1)).
  { intros -> C. eapply calm_trans; [exact C|now apply calm_same]. }
  (* the kinds of action *)
  assert (Lay : forall l, pd_layer k0 code l pressed = Ok k1 -> fx none false k0 k1 /\ clean k1).
  { intros l E. unfold pd_layer in E. bstep E k2 E2. apply Ok_inj in E. subst k1.
    split; [|apply update_mods_clean]. eapply fx_trans; [|apply update_mods_fx].
    destruct pressed; [eapply activate_fx, E2|eapply deactivate_fx, E2]. }
  assert (OneR : forall l, (tg = true -> M l = 0%N) -> pressed = false -> pd_oneshot k0 code l dl pressed time = Ok k1 -> calmfx k0 k1).
  { intros l Hl -> E. unfold pd_oneshot in E. destruct (k_latch k0).
    - bstep E u Eu.
      assert (G : calmfx k0 (set_lsi l (set_l_depth ((l_depth (k_ls k0 l) + 1) mod 256) (k_ls k0 l)) k0)).
      { split.
        - split; [reflexivity|]. split; [auto|]. split; [auto|]. intros X Y i. kcbn. unfold nupd.
          destruct (Nat.eqb_spec i l) as [->|]; [intros _; auto|apply X; exact Y].
        - intros [C|C]; [left|now right]. intros b c Hm Hdn. destruct (C b c Hm Hdn) as [i [[I1 I2] I3]].
          exists i. split; [|exact I3]. split; [exact I1|]. kcbn. unfold nupd.
          destruct (Nat.eqb_spec i l) as [->|]; exact I2. }
      destruct (_ =? 0)%Z; [apply Ok_inj in E; subst; exact G|].
      eapply calm_trans; [exact G|]. apply schedule_ok in E as ->. now apply calm_same.
    - bstep E k2 E2. apply Ok_inj in E. subst k1. apply calm_clean; [|apply update_mods_clean].
      eapply fx_trans; [eapply deactivate_fx, E2|apply update_mods_fx]. }
  assert (OneP : forall l, pressed = true -> pd_oneshot k0 code l dl pressed time = Ok k1 -> fx none false k0 k1 /\ clean k1).
  { intros l -> E. unfold pd_oneshot in E. bstep E k2 E2. apply Ok_inj in E. subst k1. split.
    - eapply fx_trans; [eapply activate_fx, E2|]. eapply fx_trans; [apply (update_mods_fx none false)|now apply fx_same].
    - apply (update_mods_clean_dl false k2 dl). }
  assert (Tog : forall l, tg = true -> pressed = true -> pd_toggle k0 code l pressed = Ok k1 -> fx none false k0 k1 /\ clean k1).
  { intros l Ht -> E. unfold pd_toggle in E. bstep E u Eu. bstep E k2 E2.
    assert (F : fx none false k0 (update_mods false k2 None 0)).
    { eapply fx_trans; [|apply update_mods_fx].
      eapply fx_trans with (b := set_lsi l (set_l_toggled (negb (l_toggled (k_ls k0 l))) (k_ls k0 l)) k0).
      - apply ls_fx; auto. intros j. kcbn. unfold nupd. destruct (Nat.eqb_spec j l) as [->|]; auto.
      - destruct (l_toggled (k_ls k0 l)); [eapply deactivate_fx, E2|eapply activate_fx, E2]. }
    split; [eapply fx_trans; [exact F|eapply clear_oneshot_fx, E]|].
    eapply clear_oneshot_clean; [eapply nok_fx; eauto|exact Ht| |exact E|apply update_mods_clean].
    apply F, Ho0. }
  assert (Mac : forall m t r, pressed = true -> pd_macro k0 m t r dl pressed time = Ok k1 -> fx none true k0 k1 /\ k_amacro k1 <> None).
  { intros m t r -> E. unfold pd_macro in E. bstep E mm Em. bstep E k2 E2. apply schedule_ok in E as ->. split; [|discriminate].
    eapply fx_trans with (b := set_k_repeat r k0); [now apply fx_same|].
    eapply fx_trans; [eapply clear_oneshot_fx, E2|].
    eapply fx_trans; [apply (fx_none none true), (execute_macro_fx k2 dl mm)|].
    split; [reflexivity|]. split; [auto|]. split; [discriminate|auto]. }
  assert (MacR : forall m t r, pressed = false -> pd_macro k0 m t r dl pressed time = Ok k1 -> k1 = k0).
  { intros m t r -> E. unfold pd_macro in E. apply Ok_inj in E. auto. }
  assert (TogR : forall l, pressed = false -> pd_toggle k0 code l pressed = Ok k1 -> k1 = k0).
  { intros l -> E. unfold pd_toggle in E. apply Ok_inj in E. auto. }
  assert (R0 : (forall c m, d <> DKey c m) -> pressed = false -> calmfx k0 k1 ->
     calmfx k (if pressed then set_k_last_code code k1 else k1)
     /\ (forall c m, d = DKey c m -> clean (if pressed then set_k_last_code code k1 else k1) /\
          (plainc c -> real c -> k_ks (if pressed then set_k_last_code code k1 else k1) c = false))).
  { intros Hn Hp C. rewrite (Rel Hp) in C. rewrite Hp. split; [exact C|]. intros c m E. exfalso. exact (Hn c m E). }
  assert (Pend : forall e b a1 a2, set_pending k0 code dl e b a1 a2 = Ok k1 -> calmfx k0 k1).
  { intros e b a1 a2 E. unfold set_pending in E. apply schedule_ok in E as ->. now apply calm_same. }
  assert (NoPre : match d with DLayerM _ _ | DOneshotM _ _ | DToggleM _ _ => False | _ => True end -> k0 = k).
  { intros Hn. unfold pre_macro in E0. destruct pressed; [|apply Ok_inj in E0; auto].
    destruct d; try contradiction Hn; apply Ok_inj in E0; auto. }
  destruct Hd as [Hd Hd'].
  destruct d; cbn [press_effect]; try contradiction Hd; try contradiction Hd'; (split; [intros Hp|intros Hp Ho1]);
    try (apply R0; [discriminate|exact Hp|]); try (rewrite Hp in E1; apply Ok_inj in E1; subst k1; now apply calm_same);
    try (rewrite Hp; apply L3; [now apply NoPre|]).
  - apply Ok_inj in E1. subst. apply calm_refl.
  - apply Ok_inj in E1. subst. apply calm_refl.
  - (* key, release *)
    subst pressed. rewrite (Rel eq_refl) in *. unfold pd_key in E1. bstep E1 k2 E2. apply Ok_inj in E1. apply Ok_inj in E2. subst k2.
    assert (F : fx none false k (update_mods false (send_key k code0 false) None 0)).
    { eapply fx_trans; [apply release_fx|apply update_mods_fx]. }
    assert (Q : calmfx (update_mods false (send_key k code0 false) None 0) k1).
    { subst k1. destruct (_ || _); now apply calm_same. }
    assert (C : clean k1).
    { pose proof (update_mods_clean false (send_key k code0 false)) as C. subst k1. destruct (_ || _); exact C. }
    assert (S : k_ks k1 = k_ks (update_mods false (send_key k code0 false) None 0)).
    { subst k1. destruct (_ || _); reflexivity. }
    split.
    + apply calm_clean; [|exact C]. eapply fx_trans; [exact F|apply Q].
    + intros c m E. injection E as <- <-. split; [exact C|]. intros P1 [R1 R2].
      rewrite S, update_mods_plain by exact P1. rewrite send_key_ks by auto. now rewrite N.eqb_refl.
  - (* key, press *)
    subst pressed. apply L1. unfold pd_key in E1. bstep E1 k2 E2. apply Ok_inj in E1.
    eapply fx_trans with (b := k2); [|subst k1; destruct (_ || _); now apply fx_same].
    eapply fx_trans; [|eapply clear_oneshot_fx, E2].
    eapply fx_trans; [|apply press_fx]. eapply fx_trans; [|apply update_mods_fx].
    destruct (k_ks k0 _); [apply fx_none, release_fx|now apply fx_same].
  - eapply OneR; eauto.
  - try rewrite Hp. destruct (OneP _ Hp E1). first [now apply calm_clean | auto].
  - eapply OneR; eauto.
  - try rewrite Hp. destruct (OneP _ Hp E1). first [now apply calm_clean | auto].
  - destruct (Lay _ E1). now apply calm_clean.
  - try rewrite Hp. destruct (Lay _ E1). first [now apply calm_clean | auto].
  - destruct (Lay _ E1). now apply calm_clean.
  - try rewrite Hp. destruct (Lay _ E1). first [now apply calm_clean | auto].
  - rewrite Hp in E1. destruct (setlayout_fx _ _ _ E1) as [A B]. apply calm_clean; [exact A|now apply up_clean].
  - rewrite Hp in E1. destruct (clear_fx _ _ E1) as [A B]. apply calm_clean; [exact A|now apply up_clean].
  - (* overload, release *)
    subst pressed. bstep E1 ac Ea. bstep E1 k2 E2. set (k3 := update_mods false k2 None 0) in *.
    destruct (nested_good _ _ _ Hk0 Ea) as [Ta Ta'].
    assert (F3 : fx none false k0 k3).
    { eapply fx_trans; [eapply deactivate_fx, E2|apply update_mods_fx]. }
    assert (C3 : clean k3) by apply update_mods_clean.
    clearbody k3. cbv zeta in E1. destruct (_ && _) in E1; [|apply Ok_inj in E1; subst; now apply calm_clean].
    assert (Hk3 : nok k3) by (eapply nok_fx; eauto).
    assert (Ho3 : odd k3) by (apply F3; exact Ho0).
    assert (P2 : is_overloadi ac = false) by (destruct Ta' as [->| ->]; [auto|apply Hd]).
    assert (P3 : is_macro ac = false) by (destruct Ta' as [->| ->]; [auto|exact Hd']).
    assert (G : (k4 <- process_descriptor fuel k3 code ac dl true time ;;
                   process_descriptor fuel k4 code ac dl false time) = Ok k1 -> calmfx k0 k1).
    { clear E1. intros E5. bstep E5 k4 E4.
      pose proof (proj2 (IH _ _ _ _ _ _ _ Hk3 Ho3 Ta E4) eq_refl P2) as F4.
      assert (X : nok k4 /\ odd k4 /\ (forall c, plainc c -> k_ks k4 c = true -> k_ks k3 c = true \/ (real c /\ exists m, ac = DKey c m))
        /\ (k_amacro k4 <> None -> k_amacro k3 <> None) /\ k_cfg k4 = k_cfg k3 /\ ((forall c m, ac <> DKey c m) -> tid k4)).
      { assert (Y : calmfx k3 k4 -> (forall c m, ac <> DKey c m) -> nok k4 /\ odd k4 /\ (forall c, plainc c -> k_ks k4 c = true -> k_ks k3 c = true \/ (real c /\ exists m, ac = DKey c m))
          /\ (k_amacro k4 <> None -> k_amacro k3 <> None) /\ k_cfg k4 = k_cfg k3 /\ ((forall c m, ac <> DKey c m) -> tid k4)).
        { intros [Y1 Y2] Hn. split; [eapply nok_fx; eauto|]. split; [apply Y1, Ho3|]. destruct Y1 as [Y3 [Y4 [Y5 _]]].
          split; [|split; [|split]]; auto.
          - intros c Hc Hx. destruct (Y4 c Hc Hx) as [Z|[_ []]]. auto.
          - intros _. apply Y2. now left. }
        destruct ac; try discriminate P3; try (apply Y; [exact F4|discriminate]).
        cbn [press_effect] in F4. split; [eapply nok_fx; eauto|]. split; [apply F4, Ho3|]. destruct F4 as [Y3 [Y4 [Y5 _]]].
        split; [|split; [|split]]; auto.
        - intros c Hc Hx. destruct (Y4 c Hc Hx) as [Z|[Z ->]]; auto. right. split; auto. now exists mods.
        - intros Hn. exfalso. now apply (Hn code0 mods). }
      destruct X as [Hk4 [Ho4 [X1 [X2 [X3 X4]]]]].
      destruct (proj1 (IH _ _ _ _ _ _ _ Hk4 Ho4 Ta E5) eq_refl) as [[[Z1 [Z2 [Z3 Z4]]] Z5] Z6].
      split; [split; [|split; [|split]]|].
      - rewrite Z1, X3. apply F3.
      - intros c Hc Hx. left. destruct F3 as [_ [F3 _]].
        assert (k_ks k3 c = true).
        { destruct (Z2 c Hc Hx) as [Y|[_ []]]. destruct (X1 c Hc Y) as [Y'|[R [m ->]]]; auto.
          exfalso. destruct (Z6 c m eq_refl) as [_ Q]. rewrite (Q Hc R) in Hx. discriminate. }
        destruct (F3 c Hc H) as [|[_ []]]; auto.
      - intros _ Hx. destruct F3 as [_ [_ [F3 _]]]. auto.
      - auto.
      - intros _. destruct ac; try (apply Z5, X4; discriminate). left. now apply (Z6 code0 mods). }
    destruct ac; try (apply G; exact E1). discriminate P3.
  - (* overload, press *)
    rewrite Hp in E1. bstep E1 ac Ea. bstep E1 k2 E2. apply Ok_inj in E1. subst.
    apply calm_clean; [|apply update_mods_clean].
    eapply fx_trans with (b := set_k_ovl_start time k0); [now apply fx_same|].
    eapply fx_trans; [eapply activate_fx, E2|apply update_mods_fx].
  - rewrite Hp in E1. bstep E1 ac Ea. eapply Pend, E1.
  - rewrite Hp in E1. bstep E1 ac Ea. eapply Pend, E1.
  - discriminate Ho1.
  - destruct (Tog _ Hd' Hp E1). now apply calm_clean.
  - rewrite Hp. destruct (Tog _ Hd' Hp E1). auto.
  - try rewrite Hp. destruct (Mac _ _ _ Hp E1). split; [now apply L1|auto].
  - try rewrite Hp. destruct (Mac _ _ _ Hp E1). split; [now apply L1|auto].
  - rewrite Hp in E1. bstep E1 cm Em. bstep E1 k2 E2. apply Ok_inj in E1. subst k1.
    apply calm_clean; [|apply update_mods_clean].
    eapply fx_trans with (b := emit (OCmd cm) k0); [now apply fx_same|].
    eapply fx_trans; [eapply clear_oneshot_fx, E2|apply update_mods_fx].
  - rewrite Hp in E1. bstep E1 ac Ea. bstep E1 ac2 Ea2. eapply Pend, E1.
  - rewrite Hp in E1. apply Ok_inj in E1. subst. now apply calm_same.
  - rewrite Hp in E1. apply Ok_inj in E1. subst. now apply calm_same.
Qed.

(* ---- the actions of held keys ------------------------------------------------------- *)
Lemma some_other k : nok k -> exists i, K i = false.
Proof.
  intros H. exists (length (c_layers (k_cfg k))). destruct (K _) eqn:E; auto.
  apply (tm_layouts _ _ _ (nt_tame _ _ _ _ _ H)) in E. unfold layout in E. rewrite nth_overflow in E by auto. discriminate.
Qed.
Lemma release_cds fuel k code d dl time k' : nok k -> good d ->
  process_descriptor fuel k code d dl false time = Ok k' ->
  cds (k_cache k') = cds (k_cache k) /\ k_pend k' = k_pend k.
Proof.
  intros Hk [Hd _] H. destruct (some_other _ Hk) as [i Ki].
  destruct (proj1 (pd_eff T K i Ki _ _ _ _ _ _ _ _ (nt_tame _ _ _ _ _ Hk) Hd H) eq_refl) as [_ [A [B _]]]. auto.
Qed.
Lemma press_cds fuel k j code d0 d dl time k' : nok k -> good d -> is_overloadi d = false -> at_entry k j code d0 ->
  process_descriptor fuel k code d dl true time = Ok k' ->
  cds (k_cache k') = cds (k_cache k) /\ (k_pend k' = k_pend k \/ (p_code (k_pend k') = code /\ pending_kind d = true)).
Proof.
  intros Hk [Hd _] Hn He H. destruct (some_other _ Hk) as [i Ki]. destruct (pending_kind d) eqn:Ep.
  - destruct (press_simple T K i Ki _ _ _ _ _ _ _ _ _ (nt_tame _ _ _ _ _ Hk) Hd Hn He H) as [_ [A [_ [B|[B _]]]]]; auto.
  - destruct (proj2 (pd_eff T K i Ki _ _ _ _ _ _ _ _ (nt_tame _ _ _ _ _ Hk) Hd H) eq_refl Hn Ep) as [_ [A [B _]]]. auto.
Qed.
(* pressing turns the entry into the action performed *)
Definition pressed_to (k : kbd) (j : nat) (code : N) (k' : kbd) (d : desc) : Prop :=
  cds (k_cache k') = upd j (code, d) (cds (k_cache k)) /\ press_effect d k k'
  /\ (k_pend k' = k_pend k \/ (p_code (k_pend k') = code /\ pending_kind d = true)).
Lemma press_to fuel k j code d dl time k' : nok k -> odd k -> good d -> uniq (k_cache k) -> code <> 0%N ->
  at_entry k j code d ->
  process_descriptor fuel k code d dl true time = Ok k' -> exists d', is_overloadi d' = false /\ pressed_to k j code k' d'.
Proof.
  intros Hk Ho Hd U Hz He H. destruct (is_overloadi d) eqn:Eo.
  - destruct d; try discriminate Eo. destruct fuel as [|fuel]; [discriminate|].
    apply pd_unfold in H as [k0 [k1 [E0 [-> E1]]]]. cbn [pre_macro] in E0. apply Ok_inj in E0. subst k0.
    bstep E1 ac Ea. bstep E1 k2 E2. apply Ok_inj in E1. subst k1.
    assert (Hac : is_overloadi ac = false /\ good ac).
    { destruct Hd as [[Hd1 Hd2] _]. destruct (_ <=? _)%Z in Ea;
        destruct (nested_good _ _ _ Hk Ea) as [Ta [-> | ->]]; auto. }
    destruct Hac as [Hn Ta].
    destruct (press_cds _ _ _ _ _ _ _ _ _ Hk Ta Hn He E2) as [X1 X2].
    pose proof (proj2 (pd_fx _ _ _ _ _ _ _ _ Hk Ho Ta E2) eq_refl Hn) as X3.
    assert (U2 : uniq (k_cache k2)) by (eapply pd_uniq; eauto).
    destruct He as [He1 He2].
    assert (L2 : length (k_cache k2) = length (k_cache k)) by (rewrite <- !cds_length; now rewrite X1).
    assert (N2 : nth j (cds (k_cache k2)) (0%N, DNone) = (code, DOverloadI a1 a2 t)) by (rewrite X1; exact He2).
    rewrite cds_nth in N2. apply pair_equal_spec in N2 as [N2 N3].
    exists ac. split; [exact Hn|]. unfold pressed_to, cache_replace_d. rewrite (find_unique _ j code U2); auto; [|lia].
    split; [|split].
    + unfold cds at 1. kcbn. rewrite map_upd. cbn [ce_code ce_d]. rewrite N2. fold (cds (k_cache k2)). now rewrite X1.
    + match goal with |- press_effect _ _ ?kx => set (k3 := kx) end.
      assert (S : forall P am, fx P am k k2 -> fx P am k k3).
      { intros P am F. eapply fx_trans; [exact F|now apply fx_same]. }
      assert (C : calmfx k k2 -> calmfx k k3).
      { intros F. eapply calm_trans; [exact F|now apply calm_same]. }
      destruct ac; cbn [press_effect] in X3 |- *; auto; destruct X3; split; auto.
    + exact X2.
  - exists d. split; [exact Eo|]. destruct (press_cds _ _ _ _ _ _ _ _ _ Hk Hd Eo He H) as [X1 X2].
    unfold pressed_to. rewrite X1. destruct He as [He1 He2]. rewrite <- He2, upd_nth. split; auto. split; [|exact X2].
    exact (proj2 (pd_fx _ _ _ _ _ _ _ _ Hk Ho Hd H) eq_refl Eo).
Qed.

(* ---- the invariant ------------------------------------------------------------------ *)
Definition held_as (k : kbd) (P : desc -> Prop) : Prop :=
  exists code d, code <> 0%N /\ In (code, d) (cds (k_cache k)) /\ P d.
Definition is_key (d : desc) : Prop := exists c m, d = DKey c m.
Record J (k : kbd) : Prop := {
  j_ok : nok k;
  j_all : alld good k;
  j_uniq : uniq (k_cache k);
  j_odd : odd k;
  (* a key that is down and not a modifier is held *)
  j_keys : forall c, plainc c -> k_ks k c = true -> real c /\ held_as k (fun d => exists m, d = DKey c m);
  (* modifiers are those of the active layers, or a key sequence is held, or a macro is running *)
  j_tidy : tid k \/ held_as k is_key;
  (* a running macro is held *)
  j_macro : k_amacro k <> None -> held_as k (fun d => is_macro d = true);
  (* an undecided key is held *)
  j_pend : p_code (k_pend k) <> 0%N -> exists j d, at_entry k j (p_code (k_pend k)) d /\ pending_kind d = true }.

Lemma good_closed : closed good.
Proof. split; intros; try (split; exact I); destruct H as [H _]; contradiction H. Qed.
Lemma good_all c : neat T K M tg c -> cfg_all good c.
Proof.
  intros H. pose proof (nt_tame _ _ _ _ _ H) as H'. split; [|split].
  - intros i code. split; [apply H'|apply H].
  - intros i ch Hch. split; [apply (tm_chords _ _ _ H' i)|apply (nt_chords _ _ _ _ _ H i)]; exact Hch.
  - intros d Hd. split; [apply (tm_descs _ _ _ H')|apply (nt_descs _ _ _ _ _ H)]; exact Hd.
Qed.
Lemma held_cds k k' P : cds (k_cache k') = cds (k_cache k) -> held_as k P -> held_as k' P.
Proof. unfold held_as. now intros ->. Qed.
(* a step that leaves the actions of held keys alone *)
Lemma J_cp k k' : calmfx k k' -> k_pend k' = k_pend k -> k_cache k' = k_cache k -> frame k k' -> cp k k' -> J k -> J k'.
Proof.
  intros [[F1 [F2 [F3 F4]]] F5] Ep Ec F C [J1 J2 J3 J4 J5 J6 J7 J8]. split.
  - unfold nok. now rewrite F1.
  - eapply alld_cp; eauto.
  - now rewrite Ec.
  - auto.
  - intros c Hc Hd. destruct (F2 c Hc Hd) as [X|[_ []]]. destruct (J5 c Hc X) as [Y Z]. split; auto.
    eapply held_cds; [|exact Z]. now rewrite Ec.
  - destruct J6 as [J6|J6]; [left; auto|right]. eapply held_cds; [|exact J6]. now rewrite Ec.
  - intros Hm. eapply held_cds; [|exact (J7 (F3 eq_refl Hm))]. now rewrite Ec.
  - unfold at_entry. rewrite Ep, Ec. exact J8.
Qed.
Lemma expire_J k time k' : expire_oneshot k time = Ok k' -> J k -> J k'.
Proof.
  intros H. pose proof (expire_cp _ _ _ H) as [C Ec]. pose proof (expire_frame _ _ _ H) as F.
  apply J_cp; auto; [|apply C]. unfold expire_oneshot in H. destruct (_ && _); [|apply Ok_inj in H; subst; apply calm_refl].
  bstep H k1 E1. apply Ok_inj in H. subst. apply calm_clean; [|apply update_mods_clean].
  eapply fx_trans; [eapply clear_oneshot_fx, E1|apply update_mods_fx].
Qed.
Lemma run_macro_J k code time k' : run_active_macro k code time = Ok k' -> J k ->
  J k' /\ (code <> 0%N -> k_amacro k' = None).
Proof.
  intros H Jk. pose proof (run_macro_cp _ _ _ _ H) as [C Ec]. pose proof (run_macro_frame _ _ _ _ H) as F.
  unfold run_active_macro in H. destruct (k_amacro k) as [m|] eqn:Em; [|apply Ok_inj in H; subst; auto].
  destruct (N.eqb_spec code 0) as [Hz|Hz]; cbn [negb] in H.
  - split; [|congruence]. destruct (_ <=? _)%Z; [|apply Ok_inj in H; now subst].
    bstep H mm Emm. apply schedule_ok in H. apply (J_cp k); auto; [|apply C]. split.
    + subst. eapply fx_trans; [apply (execute_macro_fx k (k_amacro_layer k) mm)|now apply fx_same].
    + intros _. right. subst. kcbn. destruct (execute_macro_only k (k_amacro_layer k) mm) as [l [s [o ->]]]. kcbn. congruence.
  - apply Ok_inj in H. split.
    + apply (J_cp k); auto; [|apply C]. subst. apply calm_clean; [|apply update_mods_clean].
      eapply fx_trans with (b := set_k_amacro None k); [apply ls_fx; auto|apply update_mods_fx].
    + intros _. subst. destruct (update_mods_only false (set_k_amacro None k) None 0) as [l [s [o ->]]]. reflexivity.
Qed.
Lemma pressed_amacro k k' d : press_effect d k k' -> is_macro d = false -> k_amacro k' <> None -> k_amacro k <> None.
Proof.
  intros H Hm. assert (X : fx none false k k' \/ exists c, fx (eq c) false k k').
  { destruct d; try discriminate Hm; cbn [press_effect] in H; try (left; apply H); right; eauto. }
  destruct X as [[_ [_ [X _]]]|[c [_ [_ [X _]]]]]; auto.
Qed.
Lemma pressed_odd k k' d : press_effect d k k' -> k_cfg k' = k_cfg k /\ (odd k -> odd k').
Proof.
  intros H. destruct d; cbn [press_effect] in H; try (destruct H as [[H1 [_ [_ H2]]] _]; auto; fail).
  destruct H as [H1 [_ [_ H2]]]. auto.
Qed.
Lemma pressed_keys k k' d c : press_effect d k k' -> plainc c -> k_ks k' c = true ->
  k_ks k c = true \/ (real c /\ exists m, d = DKey c m).
Proof.
  intros H Hc Hd. destruct d; cbn [press_effect] in H;
    try (destruct H as [[_ [H _]] _]; destruct (H c Hc Hd) as [|[_ []]]; auto; fail).
  destruct H as [_ [H _]]. destruct (H c Hc Hd) as [|[R <-]]; auto. right. split; eauto.
Qed.
Lemma in_upd_other {A} (l : list A) x j y z : In y l -> nth j l z <> y -> In y (upd j x l).
Proof.
  revert j. induction l as [|a l IH]; intros j Hin Hne; [destruct Hin|]. destruct j as [|j]; cbn [upd nth In] in *.
  - destruct Hin as [->|Hin]; [congruence|auto].
  - destruct Hin as [->|Hin]; auto.
Qed.
Lemma in_upd_same {A} (l : list A) x j : j < length l -> In x (upd j x l).
Proof.
  revert j. induction l as [|a l IH]; intros j H; cbn [length] in H; [lia|]. destruct j as [|j]; cbn [upd In]; auto.
  right. apply IH. lia.
Qed.

Lemma classic_key d : is_key d \/ ~ is_key d.
Proof. destruct d; first [left; eexists _, _; reflexivity | right; intros [? [? ?]]; discriminate]. Qed.
(* the key gets the entry (code, d) in slot j, which was free or undecided, and is
   pressed *)
Lemma enter_J k k1 j code d dl time fuel k' :
  J k -> alld good k1 -> good d -> code <> 0%N ->
  k_cfg k1 = k_cfg k -> k_ls k1 = k_ls k -> k_ks k1 = k_ks k -> k_amacro k1 = k_amacro k -> uniq (k_cache k1) ->
  j < length (k_cache k) ->
  (fst (nth j (cds (k_cache k)) (0%N, DNone)) = 0%N \/ pending_kind (snd (nth j (cds (k_cache k)) (0%N, DNone))) = true) ->
  cds (k_cache k1) = upd j (code, d) (cds (k_cache k)) ->
  p_code (k_pend k1) = 0%N ->
  process_descriptor fuel k1 code d dl true time = Ok k' -> J k'.
Proof.
  intros [J1 J2 J3 J4 J5 J6 J7 J8] A1 Hd Hz Ec El Es Em U Hj Hn Hc Hp H.
  assert (Hk1 : nok k1) by (unfold nok; rewrite Ec; exact J1).
  assert (Ho1 : odd k1) by (unfold odd; rewrite El; exact J4).
  assert (L1 : length (k_cache k1) = length (k_cache k)).
  { rewrite <- !cds_length, Hc. apply upd_length. }
  assert (He : at_entry k1 j code d).
  { split; [lia|]. rewrite Hc. apply nth_upd_same. now rewrite cds_length. }
  destruct (press_to _ _ _ _ _ _ _ _ Hk1 Ho1 Hd U Hz He H) as [d' [Hn' [P1 [P2 P3]]]].
  assert (P1' : cds (k_cache k') = upd j (code, d') (cds (k_cache k))).
  { rewrite P1, Hc. apply upd_upd. }
  assert (Old : forall P : desc -> Prop, (forall x, P x -> pending_kind x = false) -> held_as k P -> held_as k' P).
  { intros P HP [c [x [X1 [X2 X3]]]]. exists c, x. split; auto. split; auto. rewrite P1'.
    apply in_upd_other with (z := (0%N, DNone)); auto. intros Y. rewrite Y in Hn. cbn [fst snd] in Hn.
    destruct Hn as [Hn|Hn]; [congruence|]. rewrite (HP x X3) in Hn. discriminate. }
  assert (New : forall P : desc -> Prop, P d' -> held_as k' P).
  { intros P HP. exists code, d'. split; auto. split; auto. rewrite P1'. apply in_upd_same. now rewrite cds_length. }
  destruct (pressed_odd _ _ _ P2) as [Ec' Ho'].
  split.
  - unfold nok. now rewrite Ec', Ec.
  - eapply pd_alld; eauto using good_closed.
  - eapply pd_uniq; eauto.
  - auto.
  - intros c Hcp Hdn. destruct (pressed_keys _ _ _ c P2 Hcp Hdn) as [X|[R X]].
    + rewrite Es in X. destruct (J5 c Hcp X) as [R Y]. split; auto. apply Old; auto. now intros x [m ->].
    + split; auto.
  - destruct (is_macro d') eqn:Hm'.
    { left. right. destruct d'; try discriminate Hm'; apply P2. }
    destruct (classic_key d') as [Hkey|Hkey].
    { right. apply New. exact Hkey. }
    destruct J6 as [J6|J6]; [left|right].
    + assert (X : calmfx k1 k').
      { destruct d'; try discriminate Hm'; cbn [press_effect] in P2; auto. exfalso. apply Hkey. unfold is_key. eauto. }
      apply X. destruct J6 as [J6|J6]; [left|right; rewrite Em; exact J6]. intros b c Hb Hdn. rewrite Es in Hdn.
      eapply lit_same; eauto.
    + apply Old; auto. now intros x [c [m ->]].
  - intros Ha. destruct (is_macro d') eqn:Hm'; [apply New; exact Hm'|].
    apply Old; [intros x Hx; destruct x; try discriminate Hx; reflexivity|]. apply J7. rewrite <- Em.
    eapply pressed_amacro; eauto.
  - intros Hq. destruct P3 as [P3|[P3 P4]]; [rewrite P3 in Hq; congruence|].
    exists j, d'. split; auto. rewrite P3. split.
    + rewrite <- cds_length, P1', upd_length, cds_length. exact Hj.
    + rewrite P1'. apply nth_upd_same. now rewrite cds_length.
Qed.

Lemma handle_key_J k code pressed time k' : handle_key k code pressed time = Ok k' -> passed k code pressed ->
  (code <> 0%N -> k_amacro k = None) -> J k -> J k'.
Proof.
  intros H Hps Hm Jk. pose proof Jk as [J1 J2 J3 J4 J5 J6 J7 J8]. unfold handle_key in H.
  destruct (N.eqb_spec code 0) as [Hz|Hz]; [apply Ok_inj in H; now subst|]. specialize (Hm Hz).
  destruct pressed.
  - assert (Hp : p_code (k_pend k) = 0%N). { destruct Hps as [Hps|[_ [Hps _]]]; [auto|discriminate]. }
    destruct (cache_get k code) eqn:Eg; [apply Ok_inj in H; now subst|].
    destruct (lookup_descriptor k code) as [d dl] eqn:El.
    assert (Hd : good d) by (eapply lookup_alld; eauto using good_closed).
    destruct (cache_set _ _ _) as [k1|] eqn:E; [|apply Ok_inj in H; now subst].
    pose proof (cache_set_alld good _ _ _ _ E) as A1. pose proof (cache_set_uniq _ _ _ _ E J3) as U1.
    apply cache_set_spec in E as [j [e [-> [Hj [Hc ->]]]]]. cbn [ce_d ce_dl ce_layer] in *.
    match type of H with do_desc ?kx _ _ _ _ _ = _ => eapply (enter_J k kx j code d dl time) end;
      [exact Jk| |exact Hd|exact Hz|reflexivity|reflexivity|reflexivity|reflexivity|exact U1|exact Hj| | |exact Hp|exact H].
    + apply A1; auto. now intros e [= <-].
    + left. rewrite cds_nth. cbn [fst]. destruct Hc as [Hc|[Hc _]]; [|exact Hc].
      exfalso. unfold cache_get in Eg. rewrite (find_unique _ j code) in Eg; auto. discriminate.
    + kcbn. rewrite cds_upd. reflexivity.
  - destruct (cache_get k code) as [j|] eqn:Eg; [|apply Ok_inj in H; now subst].
    apply cache_find_at in Eg as [_ [Eg1 Eg2]]. rewrite Nat.sub_0_r in *.
    destruct (cache_set _ _ _) as [k1|] eqn:E; [|apply Ok_inj in H; now subst].
    pose proof (cache_set_alld good _ _ _ _ E) as A1. pose proof (cache_set_uniq _ _ _ _ E J3) as U1.
    apply cache_set_spec in E as [x [e [-> [Hx [Hc ->]]]]].
    assert (Ex : x = j).
    { destruct Hc as [Hc|[_ Hc]]; [|exfalso; apply (Hc _ (nth_In _ zero_ce Eg1) Eg2)]. apply J3; auto; congruence. }
    subst x. clear Hc. unfold cache_nth in H. set (d := ce_d (nth j (k_cache k) zero_ce)) in *.
    match type of H with do_desc ?kx _ _ _ _ _ = _ => set (k1 := kx) in * end.
    assert (A2 : alld good k1) by (apply A1; [intros e [=]|exact J2]).
    assert (Td : good d). { destruct J2 as [_ [J2 _]]. apply J2, in_map, nth_In, Eg1. }
    assert (Ok1 : nok k1) by exact J1. assert (Od1 : odd k1) by exact J4.
    unfold do_desc in H.
    destruct (proj1 (pd_fx _ _ _ _ _ _ _ _ Ok1 Od1 Td H) eq_refl) as [[[F1 [F2 [F3 F4]]] F5] F6].
    destruct (release_cds _ _ _ _ _ _ _ Ok1 Td H) as [F7 F8].
    assert (Hc1 : cds (k_cache k1) = upd j (0%N, d) (cds (k_cache k))).
    { subst k1. kcbn. rewrite cds_upd. reflexivity. }
    assert (Oldd : nth j (cds (k_cache k)) (0%N, DNone) = (code, d)).
    { rewrite cds_nth, Eg2. reflexivity. }
    assert (Old : forall P : desc -> Prop, ~ P d -> held_as k P -> held_as k' P).
    { intros P HP [c [x [X1 [X2 X3]]]]. exists c, x. split; auto. split; auto. rewrite F7, Hc1.
      apply in_upd_other with (z := (0%N, DNone)); auto. rewrite Oldd. intros Y. apply pair_equal_spec in Y as [_ Y]. subst x. auto. }
    split.
    + unfold nok. now rewrite F1.
    + eapply pd_alld; eauto using good_closed.
    + eapply pd_uniq; eauto.
    + auto.
    + intros c Hcp Hdn. destruct (F2 c Hcp Hdn) as [X|[_ []]]. change (k_ks k1) with (k_ks k) in X.
      destruct (J5 c Hcp X) as [R Y]. split; auto. apply Old; auto. intros [m Em].
      destruct (F6 c m Em) as [_ Z]. rewrite (Z Hcp R) in Hdn. discriminate.
    + destruct (classic_key d) as [Hkey|Hkey].
      * left. left. destruct Hkey as [c [m Em]]. exact (proj1 (F6 c m Em)).
      * destruct J6 as [J6|J6]; [left|right; apply Old; auto]. apply F5. exact J6.
    + intros Ha. exfalso. exact (F3 eq_refl Ha Hm).
    + intros Hq. rewrite F8 in Hq. change (k_pend k1) with (k_pend k) in Hq.
      destruct (J8 Hq) as [j2 [d2 [[G1 G2] G3]]]. exists j2, d2. split; auto. rewrite F8.
      change (k_pend k1) with (k_pend k).
      assert (Hne : j2 <> j).
      { intros ->. rewrite cds_nth, Eg2 in G2. apply pair_equal_spec in G2 as [G2 _].
        destruct Hps as [Hps|[_ [_ [Hps _]]]]; congruence. }
      assert (L : length (k_cache k') = length (k_cache k)).
      { rewrite <- !cds_length, F7, Hc1. apply upd_length. }
      split; [lia|]. rewrite F7, Hc1. rewrite nth_upd_other by auto. exact G2.
Qed.
Lemma decide_J k q a time k' : J k -> p_code (k_pend k) <> 0%N ->
  a = p_a1 (k_pend k) \/ a = p_a2 (k_pend k) ->
  decide k (set_p_queue q (k_pend k)) a time = Ok k' -> J k'.
Proof.
  intros Jk Hz Ha H. pose proof Jk as [J1 J2 J3 J4 J5 J6 J7 J8]. unfold decide in H. cbn [p_code p_dl set_p_queue] in H.
  set (k2 := set_k_pend (set_p_code 0%N (set_p_queue [] (set_p_queue q (k_pend k)))) k) in *.
  assert (Td : good a). { destruct J2 as [_ [_ [_ [X1 X2]]]]. destruct Ha as [->| ->]; auto. }
  assert (A2 : alld good k2) by exact J2.
  destruct (J8 Hz) as [j [d [[G1 G2] G3]]].
  assert (Hc : ce_code (nth j (k_cache k) zero_ce) = p_code (k_pend k)).
  { rewrite cds_nth in G2. now apply pair_equal_spec in G2. }
  destruct (cache_set k2 _ _) as [k3|] eqn:E.
  - pose proof (cache_set_alld good _ _ _ _ E) as A3. pose proof (cache_set_uniq _ _ _ _ E J3) as U3.
    apply cache_set_spec in E as [x [e [-> [Hx [Hcx ->]]]]]. change (k_cache k2) with (k_cache k) in *.
    assert (Ex : x = j).
    { destruct Hcx as [Hcx|[_ Hcx]]; [|exfalso; apply (Hcx _ (nth_In _ zero_ce G1) Hc)]. apply J3; auto; congruence. }
    subst x. clear Hcx. cbn [ce_d ce_dl ce_layer] in *. unfold do_desc in H.
    match type of H with process_descriptor _ ?kx _ _ _ _ _ = _ => eapply (enter_J k kx j (p_code (k_pend k)) a) end;
      [exact Jk| |exact Td|exact Hz|reflexivity|reflexivity|reflexivity|reflexivity|exact U3|exact Hx| | |reflexivity|exact H].
    + apply A3; auto. now intros e [= <-].
    + right. rewrite G2. exact G3.
    + kcbn. rewrite cds_upd. reflexivity.
  - exfalso. unfold cache_set in E. change (k_cache k2) with (k_cache k) in E.
    destruct (cache_slot _ _ _ _) eqn:Es; [discriminate E|]. clear - Es G1 Hc.
    assert (X : forall l n s, In (nth j (k_cache k) zero_ce) l -> cache_slot l (p_code (k_pend k)) n s <> None).
    { induction l as [|e l IH]; intros n s Hin; [destruct Hin|]. cbn [cache_slot].
      destruct (N.eqb_spec (ce_code e) (p_code (k_pend k))); [discriminate|].
      destruct Hin as [->|Hin]; [congruence|]. now apply IH. }
    apply (X (k_cache k) 0 None); auto. now apply nth_In.
Qed.
Lemma chord_J k k' : chord_changed k k' -> J k -> J k'.
Proof.
  intros C [J1 J2 J3 J4 J5 J6 J7 J8]. pose proof (chord_alld _ good_closed _ _ C J2) as A.
  destruct C as [q [acs [ts [-> _]]]]. split; auto.
Qed.
Lemma pending_J k code pressed time r : J k -> pending_plan k code pressed time = Ok r ->
  pplan_ok J (fun _ => True) r.
Proof.
  intros Jk E. unfold pending_plan in E.
  destruct (N.eqb_spec (p_code (k_pend k)) 0) as [Hz|Hz]; [apply Ok_inj in E; now subst|].
  destruct (_ && _) in E; [discriminate E|]. destruct (_ && _) in E; [apply Ok_inj in E; now subst|].
  set (q1 := if (code =? 0)%N then p_queue (k_pend k) else p_queue (k_pend k) ++ [mkKev code pressed time]) in *.
  assert (Ep : (if (code =? 0)%N then k_pend k
          else set_p_queue (p_queue (k_pend k) ++ [mkKev code pressed time]) (k_pend k))
          = set_p_queue q1 (k_pend k)).
  { subst q1. destruct (code =? 0)%N; auto. now destruct (k_pend k). }
  rewrite Ep in E. destruct (has_op _) eqn:Eo.
  - bstep E k3 E3. apply Ok_inj in E. subst r. split; [|apply Forall_forall; auto].
    eapply decide_J; [exact Jk|exact Hz| |exact E3].
    apply pending_action_src in Eo as [Eo|Eo]; rewrite Eo; auto.
  - apply Ok_inj in E. subst r. destruct Jk as [J1 J2 J3 J4 J5 J6 J7 J8]. split; auto.
Qed.
Lemma events_J fuel k evs k' t : J k -> kbd_process_events fuel k evs = Ok (k', t) -> J k'.
Proof.
  intros Jk H. apply (liftok_events J (fun _ => True)) with (fuel := fuel) (k := k) (evs := evs) (t := t); auto.
  - intros k0 code pressed time r H0 _ E. destruct r as [k1 pl].
    apply chord_plan_shape in E as [E _]. pose proof (chord_J _ _ E H0) as J1.
    destruct pl; cbn [plan_fine]; auto. split; auto. split; auto. intros. apply Forall_forall; auto.
  - intros k0 [J1 J2 J3 J4 J5 J6 J7 J8]. split; auto.
  - intros k0 code pressed time r H0 _ E. eapply pending_J; eauto.
  - intros k0 code pressed time k1 H0 _ Hp Hr. unfold rest_step in Hr. bstep Hr k3 E3. bstep Hr k4 E4.
    pose proof (expire_J _ _ _ E3 H0) as J3. destruct (run_macro_J _ _ _ _ E4 J3) as [J4 Hm].
    eapply handle_key_J; [exact Hr| |exact Hm|exact J4].
    assert (Ep : k_pend k4 = k_pend k0).
    { apply expire_cp in E3 as [[E3 _] _]. apply run_macro_cp in E4 as [[E4 _] _]. congruence. }
    unfold passed. now rewrite Ep.
  - intros k0 e [J1 J2 J3 J4 J5 J6 J7 J8]. split; auto.
  - apply Forall_forall; auto.
Qed.
Lemma new_depth c clk i : l_depth (k_ls (new_keyboard c clk) i) = 0%N.
Proof.
  unfold new_keyboard. cbv zeta. kcbn.
  assert (Z : l_depth (nupd (fun _ => zero_lst) 0 (mkLst 0 1 false 0) i) = 0%N).
  { unfold nupd. now destruct (Nat.eqb i 0). }
  destruct (c_default_layout c) as [|y name]; [exact Z|]. destruct (find_layout _ _ _) as [m|]; [|exact Z].
  unfold nupd at 1. destruct (Nat.eqb i m); [reflexivity|exact Z].
Qed.
Lemma init_J c clk : neat T K M tg c -> J (new_keyboard c clk).
Proof.
  intros Hc. split.
  - exact Hc.
  - split; [now apply good_all|]. cbn [new_keyboard k_cache k_achords k_pend p_a1 p_a2].
    split; [|split; [|split; split; exact I]].
    + intros d Hd. apply in_map_iff in Hd as [e [<- Hd]]. apply repeat_spec in Hd. subst. split; exact I.
    + intros ac Hac. apply repeat_spec in Hac. subst. split; exact I.
  - apply uniq_zero.
  - intros _ i Hi. exfalso. apply Hi. apply new_depth.
  - intros x _ H. discriminate H.
  - left. left. intros b x _ H. discriminate H.
  - intros H. exfalso. now apply H.
  - intros H. exfalso. now apply H.
Qed.
Lemma eval_J k c' : neat T K M tg c' -> J k -> J (set_k_cfg c' k).
Proof.
  intros Hg [J1 [_ J2] J3 J4 J5 J6 J7 J8]. split; auto.
  - split; [now apply good_all|exact J2].
  - destruct J6 as [[C|C]|J6]; [|left; now right|now right]. left. left. intros b x Hm Hd.
    destruct (C b x Hm Hd) as [i [[I1 I2] I3]]. exists i. unfold layer_mods in I3. rewrite (nt_mods _ _ _ _ _ J1) in I3.
    split; [split; [|exact I2]|].
    + kcbn. destruct (Nat.lt_ge_cases i (length (c_layers c'))) as [L|L]; auto. exfalso.
      pose proof (nt_mods _ _ _ _ _ Hg i) as E. rewrite nth_overflow in E by exact L. cbn [ly_mods zero_layer] in E.
      apply I3. rewrite <- E. apply N.land_0_r.
    + unfold layer_mods. kcbn. now rewrite (nt_mods _ _ _ _ _ Hg).
Qed.
Lemma outside_J k k' : outside k k' -> J k -> J k'.
Proof. intros H [J1 J2 J3 J4 J5 J6 J7 J8]. destruct H; split; auto. Qed.
Lemma reach_J c k : reach (neat T K M tg) c k -> J k.
Proof.
  intros H. induction H as [clk Hk Hg|k fuel evs k' t Hr IH H|k exp k' ok Hr IH H Hg|k k' Hr IH H].
  - now apply init_J.
  - eapply events_J; eauto.
  - apply kbd_eval_shape in H as [c' ->]. now apply eval_J.
  - eapply outside_J; eauto.
Qed.
End Stuck.

(* ---- the host sees no more keys down than the key table ------------------------------- *)
Lemma host_after c : forall o out, host_down (rev o ++ out) c = after c o (host_down out c).
Proof.
  induction o as [|e o IH]; intros out; auto. cbn [rev]. rewrite <- app_assoc. rewrite IH. cbn [app after fold_left].
  destruct e; reflexivity.
Qed.
Definition under (k : kbd) (code : N) : Prop := host_down (k_out k) code = true -> k_ks k code = true.
Lemma send_key_under k c p x : under k x -> under (send_key k c p) x.
Proof.
  unfold under, send_key. destruct (_ || _); auto. intros H.
  assert (G : forall k1, k_out k1 = k_out k -> k_ks k1 = k_ks k ->
    host_down (k_out (if eqb (k_ks k1 c) p then k1 else emit (OKey c p) (set_k_ks (fupd (k_ks k1) c p) k1))) x = true ->
    k_ks (if eqb (k_ks k1 c) p then k1 else emit (OKey c p) (set_k_ks (fupd (k_ks k1) c p) k1)) x = true).
  { intros k1 E1 E2. destruct (eqb _ _); [rewrite E1, E2; exact H|]. kcbn. cbn [host_down]. unfold fupd.
    rewrite (N.eqb_sym x c). destruct (c =? x)%N; auto. rewrite E1, E2. exact H. }
  destruct p; apply G; reflexivity.
Qed.
Lemma reach_under (G : config -> Prop) c k code :
  (forall c, G c -> forall m, In m (c_macros c) -> lets_go m) -> reach G c k -> under k code.
Proof.
  intros HG. revert k. apply (reach_ind_steps G c (fun k => under k code)).
  - intros clk _ H. discriminate H.
  - intros k k' Hk Hp Ha. destruct Hp; auto.
    + destruct H as [_ [_ [Hks [Ho _]]]]. unfold under. now rewrite Hks, Ho.
    + now apply send_key_under.
    + unfold under. kcbn. cbn [host_down]. unfold fupd. rewrite (N.eqb_sym code).
      destruct (c0 =? code)%N; auto.
    + unfold under. cbn [emits set_k_out k_out k_ks]. rewrite host_after. intros X. apply Ha.
      destruct H as [->|H]; [exact X|]. exact (HG _ Hk m H _ _ _ X).
    + unfold activate_layer in H. bauto H. exact Ha.
    + unfold deactivate_layer in H. bauto H. exact Ha.
    + unfold drop_layout. destruct (is_layout _); auto.
  - auto.
  - intros k k' Ho Ha. destruct Ho; exact Ha.
Qed.

(* no key held, no layer toggled or waiting: nothing is pressed *)
Lemma nothing_down T K M tg k : J T K M tg k -> none_held k ->
  (forall i, layer_active k i -> K i = true) -> forall c, k_ks k c = false.
Proof.
  intros [J1 J2 J3 J4 J5 J6 J7 J8] Hn Hl c. destruct (k_ks k c) eqn:E; auto. exfalso.
  assert (X : forall P, ~ held_as k P).
  { intros P [code [d [X1 [X2 _]]]]. apply X1. apply in_map_iff in X2 as [e [X2 X3]].
    apply pair_equal_spec in X2 as [<- _]. now apply Hn. }
  destruct (in_dec N.eq_dec c (map snd modifiers)) as [Hm|Hm].
  - apply in_map_iff in Hm as [[b c'] [Hc Hm]]. cbn [snd] in Hc. subst c'. apply modifiers_sound in Hm.
    destruct J6 as [[C|C]|J6]; [|exact (X _ (J7 C))|exact (X _ J6)].
    destruct (C b c Hm E) as [i [I1 I2]]. apply I2. unfold layer_mods. rewrite (nt_mods _ _ _ _ _ J1).
    rewrite (nt_layouts _ _ _ _ _ J1 i (Hl i I1)). apply N.land_0_r.
  - assert (Hp : plainc c).
    { intros b Hb. apply Hm. apply modifiers_sound in Hb. apply in_map_iff. exists (b, c). auto. }
    exact (X _ (proj2 (J5 c Hp E))).
Qed.
