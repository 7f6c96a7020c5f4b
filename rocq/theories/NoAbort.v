(* Restricted configurations never abort (C05). *)
From Verif Require Import Base Lib Keys Types MacroExec Kbd Config Steps Hist SpecTrace SpecMods SpecLookup
  SpecHist SpecActions SpecKept SpecAccount TraceProofs ModsProofs LookupProofs Engine SpecWf Wf WfEvents ActProofs StepProofs OneProofs
  CacheProofs Inv ClassInv ParseWf WfHist KeptProofs LiftOk Account.

(* ---- nothing is ever undecided or repeating ------------------------------------------- *)
Section Calm.
Variable T : nat -> desc.
Variable K : nat -> bool.

Lemma calm_closed : closed (calm_desc K).
Proof. split; intros; cbn in *; auto; contradiction. Qed.
Lemma calm_all c : calm T K c -> cfg_all (calm_desc K) c.
Proof.
  intros H. split; [apply H|]. split; [|apply H]. intros i ch Hch. rewrite (cm_chords _ _ _ H) in Hch. destruct Hch.
Qed.

Definition mp (k k' : kbd) : Prop := k_pend k' = k_pend k /\ (k_amacro k = None -> k_amacro k' = None).
Lemma mp_refl k : mp k k. Proof. split; auto. Qed.
Lemma mp_trans a b c : mp a b -> mp b c -> mp a c.
Proof. unfold mp. intros [A1 A2] [B1 B2]. split; [congruence|auto]. Qed.
Ltac mpt := norm_states; split; kcbn; auto.
Lemma setlayout_mp k i k' : setlayout k i = Ok k' -> mp k k'.
Proof.
  unfold setlayout. intros H. bstep H u Eu. bstep H k1 E1. apply Ok_inj in H. subst k'.
  assert (G : forall l k, mp k (fold_left drop_layout l k)).
  { clear. induction l; cbn [fold_left]; intros; [apply mp_refl|].
    eapply mp_trans; [|apply IHl]. unfold drop_layout. destruct (is_layout _); split; auto. }
  eapply mp_trans; [|eapply (mp_trans _ _ _ (G (seq 1 (nlayers k1 - 1)) k1))].
  - mpt.
  - destruct (Nat.eqb i 0); split; auto.
Qed.
Lemma pd_mp : forall fuel k code d dl pressed time k', calm_desc K d ->
  (forall d, In d (c_descs (k_cfg k)) -> calm_desc K d) -> c_oneshot_timeout (k_cfg k) = 0%Z ->
  process_descriptor fuel k code d dl pressed time = Ok k' -> mp k k'.
Proof.
  induction fuel as [|fuel IH]; intros k code d dl pressed time k' Hd Hn Ho H; [discriminate|].
  apply pd_unfold in H as [k0 [k1 [E0 [-> E1]]]].
  pose proof (pre_macro_only _ _ _ _ _ E0) as [l0 [s0 [o0 Ek]]].
  assert (Hc : k_cfg k0 = k_cfg k) by (subst; reflexivity).
  apply (mp_trans k k0); [subst; mpt|]. rewrite <- Hc in Hn, Ho.
  apply (mp_trans k0 k1); [|destruct pressed; split; auto].
  clear Ek E0 Hc k l0 s0 o0.
  assert (One : forall l, pd_oneshot k0 code l dl pressed time = Ok k1 -> mp k0 k1).
  { intros l E. unfold pd_oneshot in E. destruct pressed; [|destruct (k_latch k0)].
    + bstep E k2 E2. apply Ok_inj in E. subst. mpt.
    + bstep E u Eu. destruct (_ =? 0)%Z; [apply Ok_inj in E; subst|]; mpt.
    + bstep E k2 E2. apply Ok_inj in E. subst. mpt. }
  assert (Lay : forall l, pd_layer k0 code l pressed = Ok k1 -> mp k0 k1).
  { intros l E. unfold pd_layer in E. bstep E k2 E2. apply Ok_inj in E. subst k1. destruct pressed; mpt. }
  assert (Tog : forall l, pd_toggle k0 code l pressed = Ok k1 -> mp k0 k1).
  { intros l E. unfold pd_toggle in E. destruct pressed; [|apply Ok_inj in E; subst; apply mp_refl].
    bstep E u Eu. bstep E k2 E2. destruct (l_toggled _); mpt. }
  assert (Nest : forall a x, desc_at k0 a = Ok x -> calm_desc K x).
  { intros a x Hx. apply desc_at_in in Hx as [->|Hx]; [exact I|auto]. }
  destruct d; try contradiction Hd; eauto; try (apply Ok_inj in E1; subst; mpt).
  - unfold pd_key in E1. bstep E1 k2 E2. apply Ok_inj in E1. subst k1.
    apply (mp_trans k0 k2); [|destruct (_ || _); split; auto].
    destruct pressed.
    + destruct (k_ks k0 code0); mpt.
    + apply Ok_inj in E2. subst. mpt.
  - destruct pressed; [now apply setlayout_mp in E1|apply Ok_inj in E1; subst; apply mp_refl].
  - destruct pressed; [|apply Ok_inj in E1; subst; apply mp_refl]. mpt.
  - destruct pressed; [|apply Ok_inj in E1; subst; apply mp_refl].
    bstep E1 mm Em. bstep E1 k2 E2. apply Ok_inj in E1. subst. mpt.
  - bstep E1 ac Ea. destruct pressed.
    + bstep E1 k2 E2. apply Ok_inj in E1. subst. mpt.
    + bstep E1 k2 E2. apply (mp_trans k0 k2); [clear E1; mpt|].
      apply (mp_trans k2 (update_mods false k2 None 0)); [clear E1; mpt|].
      assert (Hc3 : k_cfg (update_mods false k2 None 0) = k_cfg k0).
      { apply deactivate_ok in E2 as [_ [b ->]]. norm_states. reflexivity. }
      set (k3 := update_mods false k2 None 0) in *. clearbody k3. cbv zeta in E1.
      destruct (_ && _) in E1; [|apply Ok_inj in E1; subst; apply mp_refl].
      assert (G : forall k1, (k4 <- process_descriptor fuel k3 code ac dl true time ;;
                   process_descriptor fuel k4 code ac dl false time) = Ok k1 -> mp k3 k1).
      { clear E1. intros k5 E5. bstep E5 k4 E4. pose proof (Nest _ _ Ea) as Hac.
        pose proof (pd_frame _ _ _ _ _ _ _ _ E4) as [F4 _].
        eapply mp_trans; eapply IH; try eassumption; try (rewrite F4); now rewrite Hc3. }
      destruct ac; try (apply G; exact E1).
      bstep E1 mm Em. apply Ok_inj in E1. subst. mpt.
  - destruct pressed; [|apply Ok_inj in E1; subst; apply mp_refl].
    bstep E1 ac Ea. bstep E1 k2 E2. apply Ok_inj in E1. subst.
    assert (Hac : calm_desc K ac) by (destruct (_ <=? _)%Z in Ea; eauto).
    apply (mp_trans k0 k2); [eapply IH; [exact Hac|exact Hn|exact Ho|exact E2]|].
    unfold cache_replace_d. destruct (cache_find _ _ _); mpt.
  - destruct pressed; [|apply Ok_inj in E1; subst; apply mp_refl].
    bstep E1 cm Em. bstep E1 k2 E2. apply Ok_inj in E1. subst. mpt.
Qed.

(* nothing undecided, nothing repeating, no chord held *)
Definition quiet (k : kbd) : Prop :=
  calm T K (k_cfg k) /\ alld (calm_desc K) k
  /\ h_state (k_chord k) = CsInactive /\ p_code (k_pend k) = 0%N /\ k_amacro k = None
  /\ (forall ac, In ac (k_achords k) -> ac_active ac = false).
Lemma quiet_no_chord k code : quiet k -> no_chord k code.
Proof.
  intros [Q1 [Q2 [Q3 [Q4 [Q5 Q6]]]]]. split; auto. right. split.
  - intros i ch _ H. unfold layer_of in H. rewrite (cm_chords _ _ _ Q1) in H. destruct H.
  - intros ac H1 H2. rewrite (Q6 ac H1) in H2. discriminate.
Qed.
Lemma quiet_seen k code pressed time : quiet k -> quiet (chord_seen k code pressed time).
Proof. intros [Q1 [Q2 [Q3 Q4]]]. split; [exact Q1|]. split; [exact Q2|]. split; [exact Q3|exact Q4]. Qed.
Lemma quiet_via k k' : frame k k' -> alld (calm_desc K) k' -> mp k k' -> quiet k -> quiet k'.
Proof.
  intros [F1 [_ [F3 [F4 _]]]] A [M1 M2] [Q1 [Q2 [Q3 [Q4 [Q5 Q6]]]]].
  split; [now rewrite F1|]. split; [exact A|]. split; [now rewrite F3|]. split; [now rewrite M1|].
  split; [auto|]. now rewrite F4.
Qed.
Lemma quiet_pd fuel k code d dl pressed time k' : quiet k -> calm_desc K d ->
  process_descriptor fuel k code d dl pressed time = Ok k' -> quiet k'.
Proof.
  intros Q Hd H. pose proof Q as [Q1 [Q2 _]].
  eapply quiet_via; [eapply pd_frame; eauto| | |exact Q].
  - eapply pd_alld; eauto using calm_closed.
  - eapply pd_mp; eauto; apply Q1.
Qed.
Lemma quiet_expire k time k' : quiet k -> expire_oneshot k time = Ok k' -> quiet k'.
Proof.
  intros Q H. pose proof Q as [_ [Q2 _]]. pose proof (expire_cp _ _ _ H) as [C _]. pose proof (expire_frame _ _ _ H) as F.
  eapply quiet_via; [exact F|eapply alld_cp; eauto| |exact Q].
  split; [apply C|]. unfold expire_oneshot in H. destruct (_ && _); [|apply Ok_inj in H; subst; auto].
  bstep H k1 E1. apply Ok_inj in H. subst. norm_states. auto.
Qed.
Lemma quiet_macro k code time : quiet k -> run_active_macro k code time = Ok k.
Proof. intros [_ [_ [_ [_ [Q5 _]]]]]. unfold run_active_macro. now rewrite Q5. Qed.
Lemma quiet_cache k code e k' : cache_set k code e = Some k' -> (forall x, e = Some x -> calm_desc K (ce_d x)) ->
  quiet k -> quiet k'.
Proof.
  intros H He Q. pose proof Q as [_ [Q2 _]].
  eapply quiet_via; [eapply cache_set_frame; eauto|eapply cache_set_alld; eauto| |exact Q].
  apply cache_set_spec in H as [i [x [-> _]]]. split; auto.
Qed.
Lemma quiet_rest k code pressed time k' : quiet k -> rest_step k code pressed time = Ok k' -> quiet k'.
Proof.
  intros Q H. unfold rest_step in H. bstep H k3 E3. bstep H k4 E4.
  pose proof (quiet_expire _ _ _ Q E3) as Q3. rewrite (quiet_macro _ _ _ Q3) in E4. apply Ok_inj in E4. subst k4.
  clear Q E3. unfold handle_key in H. destruct (code =? 0)%N; [apply Ok_inj in H; now subst|].
  destruct pressed.
  - destruct (cache_get k3 code); [apply Ok_inj in H; now subst|].
    destruct (lookup_descriptor k3 code) as [d dl] eqn:El.
    assert (Hd : calm_desc K d) by (eapply lookup_alld; [apply calm_closed|apply Q3|exact El]).
    destruct (cache_set _ _ _) as [k1|] eqn:E; [|apply Ok_inj in H; now subst].
    eapply quiet_pd; [|exact Hd|exact H]. eapply quiet_cache; eauto. now intros x [= <-].
  - destruct (cache_get k3 code) as [j|] eqn:Eg; [|apply Ok_inj in H; now subst].
    destruct (cache_set _ _ _) as [k1|] eqn:E; [|apply Ok_inj in H; now subst].
    eapply quiet_pd; [| |exact H].
    + eapply quiet_cache; eauto. discriminate.
    + destruct Q3 as [_ [[_ [Q3 _]] _]]. apply Q3, in_map, nth_In.
      apply cache_find_at in Eg as [_ [Eg _]]. lia.
Qed.
Lemma quiet_pass k code pressed time : quiet k -> pending_plan k code pressed time = Ok (k, PPass).
Proof. intros [_ [_ [_ [Q4 _]]]]. unfold pending_plan. now rewrite Q4. Qed.
Lemma quiet_events fuel k evs k' t : quiet k -> kbd_process_events fuel k evs = Ok (k', t) -> quiet k'.
Proof.
  intros Q H. apply (liftok_events quiet (fun _ => True)) with (fuel := fuel) (k := k) (evs := evs) (t := t); auto.
  - intros k0 code pressed time r H0 _ E. rewrite (chord_plan_open _ _ _ _ (quiet_no_chord _ _ H0)) in E.
    apply Ok_inj in E. subst r. now apply quiet_seen.
  - intros k0 [Q1 [Q2 [Q3 Q4]]]. split; [exact Q1|]. split; [exact Q2|]. split; [reflexivity|exact Q4].
  - intros k0 code pressed time r H0 _ E. rewrite (quiet_pass _ _ _ _ H0) in E. apply Ok_inj in E. now subst.
  - intros k0 code pressed time k1 H0 _ _ Hr. eapply quiet_rest; eauto.
  - apply Forall_forall; auto.
Qed.
Lemma init_quiet c clk : calm T K c -> quiet (new_keyboard c clk).
Proof.
  intros Hc. split; [exact Hc|]. split; [|split; [reflexivity|split; [reflexivity|split; [reflexivity|]]]].
  - split; [now apply calm_all|]. cbn [new_keyboard k_cache k_achords k_pend p_a1 p_a2].
    repeat split; try exact I.
    + intros d Hd. apply in_map_iff in Hd as [e [<- Hd]]. apply repeat_spec in Hd. subst. exact I.
    + intros ac Hac. apply repeat_spec in Hac. subst. exact I.
  - intros ac Hac. apply repeat_spec in Hac. now subst.
Qed.
Lemma reach_quiet c k : reach (calm T K) c k -> quiet k.
Proof.
  intros H. induction H as [clk Hk Hg|k fuel evs k' t Hr IH H|k exp k' ok Hr IH H Hg|k k' Hr IH H].
  - now apply init_quiet.
  - eapply quiet_events; eauto.
  - apply kbd_eval_shape in H as [c' ->]. destruct IH as [Q1 [[_ Q2] Q3]].
    exact (conj Hg (conj (conj (calm_all _ Hg) Q2) Q3)).
  - destruct H; exact IH.
Qed.
Lemma reach_history c k : reach (calm T K) c k -> exists clk, history c clk k.
Proof.
  intros H. induction H as [clk Hk Hg|k fuel evs k' t Hr [clk IH] H|k exp k' ok Hr [clk IH] H Hg|k k' Hr [clk IH] H].
  - exists clk. now constructor.
  - exists clk. eapply hi_events; eauto.
  - exists clk. eapply hi_eval; eauto. apply reach_quiet in Hr as [_ [_ [Q3 _]]].
    unfold striking. rewrite Q3. intros [X|X]; discriminate.
  - exists clk. eapply hi_outside; eauto.
Qed.
Lemma reach_weaken (G G' : config -> Prop) c k : (forall c, G c -> G' c) -> reach G c k -> reach G' c k.
Proof.
  intros HG H. induction H; [apply reach_init; auto|eapply reach_events; eauto|eapply reach_eval; eauto|eapply reach_outside; eauto].
Qed.

(* ---- no abort ---------------------------------------------------------------------------- *)
Definition nc {A} (P : A -> Prop) (r : res A) : Prop :=
  match r with Ok x => P x | Crash _ => False | _ => True end.
Lemma nc_bind {A B} (R : B -> Prop) (e : res A) (f : A -> res B) :
  nc (fun _ => True) e -> (forall x, e = Ok x -> nc R (f x)) -> nc R (bind e f).
Proof. destruct e; cbn; auto. Qed.
Lemma nc_bindP {A B} (P : A -> Prop) (R : B -> Prop) (e : res A) (f : A -> res B) :
  nc P e -> (forall x, P x -> nc R (f x)) -> nc R (bind e f).
Proof. destruct e; cbn; auto. Qed.
Lemma nc_both {A} (P R : A -> Prop) r : nc P r -> (forall x, r = Ok x -> P x -> R x) -> nc R r.
Proof. destruct r; cbn; auto. Qed.
Lemma nc_true {A} (P : A -> Prop) r : nc P r -> nc (fun _ => True) r.
Proof. destruct r; cbn; auto. Qed.

Definition E (n : nat -> Z) (k : kbd) : Prop :=
  forall i, (K i = true -> l_depth (k_ls k i) = 0%N) /\ (K i = false -> (n i <= av (k_ls k i))%Z).
Definition L (m : nat -> Z) (k : kbd) : Prop :=
  forall i, K i = false -> (Z.of_N (l_active (k_ls k i)) <= 254 + m i)%Z.
Definition zero (_ : nat) : Z := 0%Z.
Definition pos (n : nat -> Z) : Prop := forall i, (0 <= n i)%Z.
Definition addn (n : nat -> Z) (m : nat -> Z) : nat -> Z := fun i => (n i + m i)%Z.
Definition onel (j : nat) : nat -> Z := fun i => if Nat.eqb j i then 1%Z else 0%Z.
Definition hzl (d : desc) : nat -> Z := fun i => if holds d i then 1%Z else 0%Z.

Lemma E_ls n k k' : k_ls k' = k_ls k -> E n k -> E n k'.
Proof. intros H HE i. rewrite H. apply HE. Qed.
Lemma L_ls m k k' : k_ls k' = k_ls k -> L m k -> L m k'.
Proof. intros H HE i. rewrite H. apply HE. Qed.
Lemma keys_ls k k' : keys_only k k' -> k_ls k' = k_ls k.
Proof. intros [l [s [o ->]]]. reflexivity. Qed.
Lemma um_ls inh k e m : k_ls (update_mods inh k e m) = k_ls k.
Proof. apply keys_ls, update_mods_only. Qed.
Lemma sk_ls k c p : k_ls (send_key k c p) = k_ls k.
Proof. apply keys_ls, send_key_only. Qed.
Lemma em_ls k dl m : k_ls (execute_macro k dl m) = k_ls k.
Proof. apply keys_ls, execute_macro_only. Qed.

Lemma act_nc n k code j : E n k -> L zero k -> K j = false ->
  nc (fun k' => E (addn n (onel j)) k' /\ L (onel j) k') (activate_layer k code j).
Proof.
  intros HE HL Hj. destruct (activate_layer k code j) as [k'| | |] eqn:H; cbn [nc]; auto.
  2:{ unfold activate_layer, chk_layer in H. destruct (Nat.ltb _ _); discriminate H. }
  apply activate_ok in H as [b ->]. unfold L, zero in *. split; intros i; kcbn; unfold nupd, addn, onel;
    rewrite (Nat.eqb_sym i j); destruct (Nat.eqb_spec j i) as [->|].
  - split; [congruence|]. intros _. specialize (HL i Hj). destruct (HE i) as [_ HE2]. specialize (HE2 Hj).
    unfold av in *. cbn [l_active l_toggled l_depth]. rewrite N.mod_small by lia. lia.
  - destruct (HE i) as [H1 H2]. split; auto. intros Hi. specialize (H2 Hi). lia.
  - intros _. specialize (HL i Hj). cbn [l_active]. rewrite N.mod_small by lia. lia.
  - intros Hi. specialize (HL i Hi). lia.
Qed.
Lemma deact_nc n k j : E (addn n (onel j)) k -> pos n -> K j = false ->
  nc (fun k' => E n k' /\ (L (onel j) k -> L zero k')) (deactivate_layer k j).
Proof.
  intros HE Hp Hj.
  assert (Ha : (1 <= l_active (k_ls k j))%N).
  { destruct (HE j) as [_ HE2]. specialize (HE2 Hj). unfold addn, onel in HE2. rewrite Nat.eqb_refl in HE2.
    specialize (Hp j). unfold av in HE2. destruct (l_toggled _); lia. }
  destruct (deactivate_layer k j) as [k'| | |] eqn:H; cbn [nc]; auto.
  2:{ unfold deactivate_layer, chk_layer in H. destruct (Nat.ltb _ _); cbn [bind] in H; [|discriminate H].
      destruct (N.eqb_spec (l_active (k_ls k j)) 0); [lia|discriminate H]. }
  apply deactivate_ok in H as [Hz [b ->]]. split.
  - intros i. kcbn. unfold nupd. rewrite (Nat.eqb_sym i j). specialize (HE i). unfold addn, onel in HE.
    destruct (Nat.eqb_spec j i) as [->|].
    + split; [congruence|]. intros _. destruct HE as [_ HE]. specialize (HE Hj).
      unfold av in *. cbn [l_active l_toggled l_depth set_l_active]. lia.
    + destruct HE as [H1 H2]. split; auto. intros Hi. specialize (H2 Hi). lia.
  - intros HL i Hi. kcbn. unfold nupd. specialize (HL i Hi). rewrite (Nat.eqb_sym i j). unfold onel, zero in *.
    destruct (Nat.eqb_spec j i) as [->|]; cbn [l_active set_l_active]; lia.
Qed.
Lemma drop_nc m : forall k i, (N.of_nat m <= l_active (k_ls k i))%N -> nc (fun _ => True) (drop_oneshots m k i).
Proof.
  induction m as [|m IH]; intros k i Hm; cbn [drop_oneshots]; [exact I|]. apply nc_bind.
  - unfold deactivate_layer, chk_layer. destruct (Nat.ltb _ _); cbn [bind nc]; auto.
    destruct (N.eqb_spec (l_active (k_ls k i)) 0); [lia|exact I].
  - intros k1 H. apply deactivate_ok in H as [Hz [b ->]]. cbv zeta. apply IH. kcbn. unfold nupd. rewrite Nat.eqb_refl.
    cbn [l_active set_l_active set_l_depth]. lia.
Qed.
Lemma col_nc l : forall k, NoDup l -> (forall j, In j l -> (l_depth (k_ls k j) <= l_active (k_ls k j))%N) ->
  nc (fun _ => True) (clear_oneshot_layers l k).
Proof.
  induction l as [|i l IH]; intros k Hn Hl; cbn [clear_oneshot_layers]; [exact I|]. apply nc_bind.
  - apply drop_nc. rewrite N2Nat.id. apply Hl. now left.
  - intros k1 H. apply drop_oneshots_ok in H as [ls [ns [-> [_ [H1 _]]]]]. inversion Hn; subst. apply IH; auto.
    intros j Hj. kcbn. rewrite H1 by congruence. apply Hl. now right.
Qed.
Lemma E_depth n k : E n k -> pos n -> forall i, (l_depth (k_ls k i) <= l_active (k_ls k i))%N.
Proof.
  intros HE Hp i. destruct (HE i) as [H1 H2]. destruct (K i).
  - rewrite H1; auto. lia.
  - specialize (H2 eq_refl). specialize (Hp i). unfold av in H2. destruct (l_toggled _); lia.
Qed.
Lemma co_nc n k : E n k -> pos n -> nc (fun k' => E n k' /\ forall m, L m k -> L m k') (clear_oneshot k).
Proof.
  intros HE Hp. pose proof (E_depth _ _ HE Hp) as Hd. destruct (clear_oneshot k) as [k'| | |] eqn:H; cbn [nc]; auto.
  2:{ unfold clear_oneshot in H. pose proof (col_nc (seq 0 (nlayers k)) k (seq_NoDup _ _) (fun j _ => Hd j)) as X.
      destruct (clear_oneshot_layers _ _); try discriminate H. exact X. }
  apply clear_oneshot_ok in H as [ls [ns [-> [_ [H1 H2]]]]]. split.
  - intros i. kcbn. destruct (HE i) as [A1 A2]. destruct (Nat.lt_ge_cases i (nlayers k)) as [Li|Li].
    + destruct (H1 i Li) as [-> _]. split; [reflexivity|]. intros Hi. rewrite (cleared_av T K i Hi) by auto. auto.
    + rewrite H2 by auto. auto.
  - intros m HL i Hi. kcbn. specialize (HL i Hi). destruct (Nat.lt_ge_cases i (nlayers k)) as [Li|Li].
    + destruct (H1 i Li) as [-> _]. unfold cleared. cbn [l_active]. lia.
    + rewrite H2 by auto. lia.
Qed.
Definition okc (k : kbd) : Prop := tame T K (k_cfg k).
Lemma okc_layout k i : okc k -> is_layout (ly_type (layer_at k i)) = K i.
Proof.
  intros H. destruct (K i) eqn:Ek.
  - apply is_layout_spec. now apply (tm_layouts _ _ _ H).
  - now apply (not_layout T K i Ek).
Qed.
Lemma ct_nc l : forall k, NoDup l -> okc k ->
  (forall j, In j l -> K j = false -> l_toggled (k_ls k j) = true -> (1 <= l_active (k_ls k j))%N) ->
  nc (fun _ => True) (clear_toggled l k).
Proof.
  induction l as [|i l IH]; intros k Hn Hk Hl; cbn [clear_toggled]; [exact I|]. inversion Hn; subst. apply nc_bind.
  - rewrite okc_layout by exact Hk. destruct (K i) eqn:Ek; [exact I|]. cbn [negb andb].
    destruct (l_toggled (k_ls k i)) eqn:Et; [|exact I].
    unfold deactivate_layer, chk_layer. destruct (Nat.ltb _ _); cbn [bind nc]; auto. cbv zeta. kcbn. unfold nupd.
    rewrite Nat.eqb_refl. cbn [l_active set_l_toggled]. specialize (Hl i (or_introl eq_refl) Ek Et).
    destruct (N.eqb_spec (l_active (k_ls k i)) 0); [lia|exact I].
  - intros k1 H. destruct (_ && _) in H.
    + apply deactivate_ok in H as [_ [b ->]]. apply IH; auto. intros j Hj. kcbn. unfold nupd.
      destruct (Nat.eqb_spec j i) as [Ex|]; [congruence|]. apply Hl. now right.
    + apply Ok_inj in H. subst. apply IH; auto. intros j Hj. apply Hl. now right.
Qed.
Lemma clear_nc n k : okc k -> E n k -> pos n -> nc (fun k' => E n k' /\ forall m, L m k -> L m k') (clear k).
Proof.
  intros Hk HE Hp. destruct (clear k) as [k'| | |] eqn:H; cbn [nc]; auto.
  2:{ unfold clear in H. pose proof (co_nc _ _ HE Hp) as X. destruct (clear_oneshot k) as [k1| | |] eqn:E1; try discriminate H.
      - destruct X as [X _]. cbn [bind] in H.
        assert (Hk1 : okc k1). { apply clear_oneshot_ok in E1 as [ls [ns [-> _]]]. exact Hk. }
        pose proof (ct_nc (seq 1 (nlayers k1 - 1)) k1 (seq_NoDup _ _) Hk1) as Y.
        destruct (clear_toggled _ _); try discriminate H. apply Y. intros j _ Ej Et.
        destruct (X j) as [_ X2]. specialize (X2 Ej). specialize (Hp j). unfold av in X2. rewrite Et in X2. lia.
      - exact X. }
  pose proof (E_depth _ _ HE Hp) as Hd. split.
  2:{ intros m HL i Ek. apply clear_ok in H as [ls [ns [-> [_ [H1 H2]]]]]. specialize (HL i Ek).
      assert (G : k_ls (reset_keystate (set_k_amacro None (set_k_oneshot_to 0 (set_k_latch false (lsn ls ns k))))) i = ls i).
      { norm_states. reflexivity. }
      rewrite G. destruct (Nat.lt_ge_cases i (nlayers k)) as [Li|Li]; [|now rewrite H2].
      destruct (H1 i Li) as [_ [Hn _]].
      destruct (Hn (not_main T K i Ek k Hk) (not_layout T K i Ek k Hk)) as [-> Ht].
      unfold untoggled, cleared. cbn [l_toggled l_active l_time l_depth].
      destruct (l_toggled (k_ls k i)); cbn [l_active l_toggled l_depth]; lia. }
  intros i. destruct (K i) eqn:Ek.
  - split; [|discriminate]. intros _. apply clear_ok in H as [ls [ns [-> [_ [H1 H2]]]]].
    assert (G : k_ls (reset_keystate (set_k_amacro None (set_k_oneshot_to 0 (set_k_latch false (lsn ls ns k))))) i = ls i).
    { norm_states. reflexivity. }
    rewrite G. destruct (HE i) as [A1 _]. destruct (Nat.lt_ge_cases i (nlayers k)) as [Li|Li].
    + destruct (H1 i Li) as [_ [_ B]]. rewrite B; [reflexivity|]. right. now rewrite okc_layout.
    + rewrite H2 by exact Li. auto.
  - split; [discriminate|]. intros _. apply clear_ok in H as [ls [ns [-> [_ [H1 H2]]]]].
    assert (G : k_ls (reset_keystate (set_k_amacro None (set_k_oneshot_to 0 (set_k_latch false (lsn ls ns k))))) i = ls i).
    { norm_states. reflexivity. }
    rewrite G. destruct (HE i) as [_ A]. specialize (A Ek). destruct (Nat.lt_ge_cases i (nlayers k)) as [Li|Li].
    + destruct (H1 i Li) as [_ [Hn _]].
      destruct (Hn (not_main T K i Ek k Hk) (not_layout T K i Ek k Hk)) as [-> Ht].
      unfold untoggled, cleared. cbn [l_toggled l_active l_time l_depth]. specialize (Hd i).
      unfold av in *. destruct (l_toggled (k_ls k i)); cbn [l_active l_toggled l_depth]; [specialize (Ht eq_refl)|]; lia.
    + rewrite H2 by exact Li. exact A.
Qed.
Lemma setlayout_nc n k j : okc k -> E n k -> pos n -> K j = true ->
  nc (fun k' => E n k' /\ forall m, L m k -> L m k') (setlayout k j).
Proof.
  intros Hk HE Hp Hj. unfold setlayout. apply nc_bind.
  { unfold chk_layer. destruct (Nat.ltb _ _); exact I. }
  intros _ _. pose proof (clear_nc _ _ Hk HE Hp) as X. apply nc_bind; [now apply nc_true in X|].
  intros k1 H1. rewrite H1 in X. cbn [nc] in *. destruct X as [X XL].
  assert (Hc : k_cfg k1 = k_cfg k). { norm_states. reflexivity. }
  set (k2 := fold_left drop_layout (seq 1 (nlayers k1 - 1)) k1).
  assert (X2 : E n k2).
  { intros i. destruct (X i) as [A1 A2]. pose proof (fold_drop_flags (seq 1 (nlayers k1 - 1)) k1 i) as [_ D].
    split; [intros Hi; unfold k2; rewrite D; auto|]. intros Hi. unfold k2.
    rewrite (drop_layouts_i T K i Hi k Hk); auto. }
  assert (XL2 : forall m, L m k -> L m k2).
  { intros m HL i Hi. unfold k2. rewrite (drop_layouts_i T K i Hi k Hk); auto. now apply XL. }
  clearbody k2. split.
  - apply (E_ls n (if Nat.eqb j 0 then k2 else set_lsi j (set_l_active 1 (set_l_time 1%Z (k_ls k2 j))) k2)); [reflexivity|].
    destruct (Nat.eqb j 0); [exact X2|]. intros i. kcbn. unfold nupd. destruct (Nat.eqb_spec i j) as [Ex|]; [|apply X2].
    split; [|congruence]. intros _. cbn [l_depth set_l_active set_l_time]. rewrite <- Ex. apply X2. congruence.
  - intros m HL. apply XL2 in HL.
    apply (L_ls m (if Nat.eqb j 0 then k2 else set_lsi j (set_l_active 1 (set_l_time 1%Z (k_ls k2 j))) k2)); [reflexivity|].
    destruct (Nat.eqb j 0); [exact HL|]. intros i Hi. kcbn. unfold nupd. destruct (Nat.eqb_spec i j) as [Ex|]; [congruence|].
    now apply HL.
Qed.

(* the action of a key, for a press and for a release *)
Definition is_toggle (d : desc) : bool := match d with DToggle _ | DToggleM _ _ => true | _ => false end.
Lemma E_add0 n m k : (forall i, m i = 0%Z) -> E n k -> E (addn n m) k.
Proof. intros Hm HE i. unfold addn. rewrite Hm, Z.add_0_r. apply HE. Qed.
Lemma E_add0' n m k : (forall i, m i = 0%Z) -> E (addn n m) k -> E n k.
Proof. intros Hm HE i. specialize (HE i). unfold addn in HE. rewrite Hm, Z.add_0_r in HE. apply HE. Qed.
Lemma L_ext m m' k : (forall i, m' i = m i) -> L m k -> L m' k.
Proof. intros Hm HE i. rewrite Hm. apply HE. Qed.
Lemma desc_at_nc k a : nc (fun _ => True) (desc_at k a).
Proof. unfold desc_at. destruct (_ <? _)%N; exact I. Qed.
Lemma macro_at_nc k a : nc (fun _ => True) (macro_at k a).
Proof. unfold macro_at. destruct (Nat.ltb _ _); exact I. Qed.
Lemma chk_nc a : nc (fun _ => True) (chk_layer a).
Proof. unfold chk_layer. destruct (Nat.ltb _ _); exact I. Qed.

Definition press_nc (n : nat -> Z) (d : desc) (k' : kbd) : Prop :=
  is_overloadi d = false -> E (addn n (hzl d)) k' /\ (is_toggle d = false -> L (hzl d) k').
Lemma pd_nc : forall fuel n k code d dl pressed time, calm T K (k_cfg k) -> tame_desc T K d -> calm_desc K d ->
  pos n ->
  (pressed = true -> E n k -> L zero k -> nc (press_nc n d) (process_descriptor fuel k code d dl pressed time))
  /\ (pressed = false -> E (addn n (hzl d)) k -> (is_toggle d = false -> L (hzl d) k) ->
      nc (E n) (process_descriptor fuel k code d dl pressed time)).
Proof.
  induction fuel as [|fuel IH]; intros n k code d dl pressed time Hc Td Hd Hp; [split; intros; exact I|].
  cbn [process_descriptor].
  assert (P0 : nc (fun k0 => k_cfg k0 = k_cfg k /\ k_ls k0 = k_ls k) (pre_macro d pressed dl k)).
  { unfold pre_macro. destruct pressed; [|split; auto].
    destruct d; try (split; auto); (apply nc_bind; [apply macro_at_nc|]; intros mm _; cbn [nc]; rewrite em_ls;
      split; [|reflexivity]; norm_states; reflexivity). }
  split; intros ->; intros HE HL; (eapply nc_bindP; [exact P0|]); clear P0; intros k0 [Hc0 Hl0];
    apply (E_ls _ k k0 Hl0) in HE.
  - apply (L_ls _ k k0 Hl0) in HL. rewrite <- Hc0 in Hc. clear Hc0 Hl0 k.
    eapply nc_bindP with (P := press_nc n d); [|intros k1 H1; cbn [nc]; exact H1].
    assert (Hk0 : okc k0) by apply Hc.
    assert (Same : (forall i, hzl d i = 0%Z) -> forall r, nc (fun k' => E n k' /\ forall m, L m k0 -> L m k') r -> nc (press_nc n d) r).
    { intros Hz r Hr. eapply nc_both; [exact Hr|]. intros k' _ [A B] _. split; [now apply E_add0|].
      intros _. apply (L_ext zero); auto. }
    assert (Id : (forall i, hzl d i = 0%Z) -> forall k', k_ls k' = k_ls k0 -> press_nc n d k').
    { intros Hz k' Hk' _. split; [apply E_add0; auto; eapply E_ls; eauto|].
      intros _. apply (L_ext zero); auto. eapply L_ls; eauto. }
    assert (Act : forall l, K l = false -> forall kx, k_ls kx = k_ls k0 ->
      nc (fun k' => E (addn n (onel l)) k' /\ L (onel l) k') (activate_layer kx code l)).
    { intros l Hl kx Hx. apply act_nc; auto; [eapply E_ls|eapply L_ls]; eauto. }
    assert (Tog : forall l, K l = false -> nc (fun k' => E n k') (pd_toggle k0 code l true)).
    { intros l Hl. unfold pd_toggle. apply nc_bind; [apply chk_nc|]. intros _ _. cbv zeta.
      eapply nc_bindP with (P := fun k' => E n k').
      - destruct (l_toggled (k_ls k0 l)) eqn:Et.
        + apply nc_both with (P := fun k' => E n k' /\ (L (onel l) (set_lsi l (set_l_toggled (negb true) (k_ls k0 l)) k0) -> L zero k'));
            [|now intros k' _ [X _]].
          apply deact_nc; auto. intros i. kcbn. unfold nupd, addn, onel. rewrite (Nat.eqb_sym i l).
          destruct (HE i) as [A B]. destruct (Nat.eqb_spec l i) as [->|].
          * split; [congruence|]. intros _. specialize (B Hl). unfold av in *. rewrite Et in B.
            cbn [l_active l_depth l_toggled set_l_toggled negb]. lia.
          * split; auto. intros Hi. specialize (B Hi). lia.
        + destruct (activate_layer _ code l) as [k'| | |] eqn:H; cbn [nc]; auto.
          2:{ unfold activate_layer, chk_layer in H. destruct (Nat.ltb _ _); discriminate H. }
          apply activate_ok in H as [b ->]. intros i. kcbn. unfold nupd. rewrite !Nat.eqb_refl.
          destruct (HE i) as [A B]. rewrite (Nat.eqb_sym i l). destruct (Nat.eqb_spec l i) as [->|]; [|auto].
          split; [congruence|]. intros _. specialize (B Hl). specialize (HL i Hl). unfold av, zero in *. rewrite Et in B.
          cbn [l_active l_depth l_toggled set_l_toggled negb]. rewrite N.mod_small by lia. lia.
      - intros k2 H2. eapply nc_both; [apply (co_nc n)|intros k' _ [X _]; exact X]; auto. eapply E_ls; [apply um_ls|exact H2]. }
    destruct d; try contradiction Hd; try (apply Id; reflexivity).
    + apply Same; [reflexivity|]. unfold pd_key. eapply nc_bindP.
      * cbv zeta. apply (co_nc n); [|exact Hp]. eapply E_ls; [|exact HE]. rewrite sk_ls, um_ls. destruct (k_ks k0 _); [apply sk_ls|reflexivity].
      * cbv beta. intros k1 [A B]. cbn [nc]. split.
        -- eapply E_ls; [|exact A]. destruct (_ || _); reflexivity.
        -- intros m Hm. apply (L_ls m k1); [destruct (_ || _); reflexivity|]. apply B. eapply L_ls; [|exact Hm].
           rewrite sk_ls, um_ls. destruct (k_ks k0 _); [apply sk_ls|reflexivity].
    + unfold pd_oneshot. eapply nc_bindP; [apply (Act _ Hd); reflexivity|]. cbv beta. intros k1 [A B] _. split.
      * eapply E_ls; [|exact A]. kcbn. apply um_ls.
      * intros _. apply (L_ls _ k1); [kcbn; apply um_ls|exact B].
    + unfold pd_oneshot. eapply nc_bindP; [apply (Act _ Hd); reflexivity|]. cbv beta. intros k1 [A B] _. split.
      * eapply E_ls; [|exact A]. kcbn. apply um_ls.
      * intros _. apply (L_ls _ k1); [kcbn; apply um_ls|exact B].
    + unfold pd_layer. eapply nc_bindP; [apply (Act _ Hd); reflexivity|]. cbv beta. intros k1 [A B] _. split.
      * eapply E_ls; [|exact A]. apply um_ls.
      * intros _. apply (L_ls _ k1); [apply um_ls|exact B].
    + unfold pd_layer. eapply nc_bindP; [apply (Act _ Hd); reflexivity|]. cbv beta. intros k1 [A B] _. split.
      * eapply E_ls; [|exact A]. apply um_ls.
      * intros _. apply (L_ls _ k1); [apply um_ls|exact B].
    + apply Same; [reflexivity|]. now apply setlayout_nc.
    + apply Same; [reflexivity|]. now apply clear_nc.
    + apply Same; [reflexivity|]. apply nc_bind; [apply macro_at_nc|]. intros mm _.
      eapply nc_bindP; [now apply clear_nc|]. cbv beta. intros k1 [A B]. cbn [nc]. split.
      * eapply E_ls; [apply em_ls|exact A].
      * intros m0 Hm. apply (L_ls m0 k1); [apply em_ls|auto].
    + apply nc_bind; [apply desc_at_nc|]. intros ac _.
      eapply nc_bindP; [apply (Act _ Hd); reflexivity|]. cbv beta. intros k1 [A B] _. split.
      * eapply E_ls; [|exact A]. apply um_ls.
      * intros _. apply (L_ls _ k1); [apply um_ls|exact B].
    + apply nc_bind; [apply desc_at_nc|]. intros ac Ha.
      assert (Hac : calm_desc K ac /\ tame_desc T K ac).
      { split; [|destruct (_ <=? _)%Z in Ha; eapply (nested_tame T K); eauto].
        destruct (_ <=? _)%Z in Ha; apply desc_at_in in Ha as [->|Ha]; try exact I; now apply (cm_descs _ _ _ Hc). }
      eapply nc_bindP; [apply (proj1 (IH n k0 code ac dl true time Hc (proj2 Hac) (proj1 Hac) Hp) eq_refl HE HL)|].
      intros k1 _. cbn [nc]. intros X. discriminate X.
    + eapply nc_both; [apply (Tog _ Hd)|]. intros k' _ A _. split; [apply E_add0; auto|]. intros X. discriminate X.
    + eapply nc_both; [apply (Tog _ Hd)|]. intros k' _ A _. split; [apply E_add0; auto|]. intros X. discriminate X.
    + apply Same; [reflexivity|]. apply nc_bind; [unfold cmd_at; destruct (Nat.ltb _ _); exact I|]. intros cm _.
      eapply nc_bindP; [apply (co_nc n); [eapply E_ls; [|exact HE]; reflexivity|exact Hp]|]. cbv beta. intros k1 [A B]. cbn [nc]. split.
      * eapply E_ls; [apply um_ls|exact A].
      * intros m Hm. apply (L_ls m k1); [apply um_ls|]. apply B. exact Hm.
  - assert (HL' : is_toggle d = false -> L (hzl d) k0) by (intros X; eapply L_ls; eauto). clear HL. rename HL' into HL.
    rewrite <- Hc0 in Hc. clear Hc0 Hl0 k.
    eapply nc_bindP with (P := E n); [|intros k1 H1; cbn [nc]; exact H1].
    assert (Hk0 : okc k0) by apply Hc.
    assert (Deact : forall l, (forall i, hzl d i = onel l i) -> K l = false ->
      nc (fun k' => E n k' /\ (L (onel l) k0 -> L zero k')) (deactivate_layer k0 l)).
    { intros l Hz Hl. apply deact_nc; auto. intros i. specialize (HE i). unfold addn in *. now rewrite Hz in HE. }
    assert (One : forall l, (forall i, hzl d i = onel l i) -> K l = false -> nc (E n) (pd_oneshot k0 code l dl false time)).
    { intros l Hz Hl. unfold pd_oneshot. destruct (k_latch k0).
      - apply nc_bind; [apply chk_nc|]. intros _ _. rewrite (cm_oneshot _ _ _ Hc). cbn [Z.eqb nc].
        intros i. kcbn. unfold nupd. rewrite (Nat.eqb_sym i l). specialize (HE i). unfold addn in HE. rewrite Hz in HE.
        unfold onel in HE. destruct HE as [A B]. destruct (Nat.eqb_spec l i) as [->|].
        + split; [congruence|]. intros _. specialize (B Hl). unfold av in *. cbn [l_active l_depth l_toggled set_l_depth].
          pose proof (N.mod_le (l_depth (k_ls k0 i) + 1) 256). lia.
        + split; auto. intros Hi. specialize (B Hi). lia.
      - eapply nc_bindP; [apply (Deact _ Hz Hl)|]. cbv beta. intros k1 [A _]. cbn [nc].
        eapply E_ls; [apply um_ls|exact A]. }
    destruct d; try contradiction Hd; try (cbn [nc]; eapply E_add0'; [|exact HE]; reflexivity).
    + unfold pd_key. cbn [bind nc]. eapply E_add0' with (m := hzl (DKey code0 mods)); [reflexivity|]. eapply E_ls; [|exact HE].
      destruct (_ || _); kcbn; rewrite um_ls, sk_ls; reflexivity.
    + apply One; auto.
    + apply One; auto.
    + unfold pd_layer. eapply nc_bindP; [apply (Deact l); auto|]. cbv beta. intros k1 [A _]. cbn [nc].
      eapply E_ls; [apply um_ls|exact A].
    + unfold pd_layer. eapply nc_bindP; [apply (Deact l); auto|]. cbv beta. intros k1 [A _]. cbn [nc].
      eapply E_ls; [apply um_ls|exact A].
    + apply nc_bind; [apply desc_at_nc|]. intros ac Ha.
      assert (Hac : calm_desc K ac /\ tame_desc T K ac /\ is_overloadi ac = false).
      { destruct (nested_tame T K k0 _ _ Hk0 Ha) as [X1 X2]. split; [|split; auto].
        - apply desc_at_in in Ha as [->|Ha]; [exact I|]. now apply (cm_descs _ _ _ Hc).
        - destruct X2 as [->| ->]; [reflexivity|apply Td]. }
      destruct Hac as [Hac [Tac Oac]].
      pose proof (Deact l (fun _ => eq_refl) Hd) as D. destruct (deactivate_layer k0 l) as [k1| | |] eqn:E1; try exact D.
      destruct D as [A B]. cbn [bind]. cbv zeta. specialize (B (HL eq_refl)).
      assert (Hc1 : calm T K (k_cfg (update_mods false k1 None 0))).
      { apply deactivate_ok in E1 as [_ [b ->]]. norm_states. exact Hc. }
      apply (E_ls n k1 (update_mods false k1 None 0)) in A; [|apply um_ls].
      apply (L_ls zero k1 (update_mods false k1 None 0)) in B; [|apply um_ls].
      set (k3 := update_mods false k1 None 0) in *. clearbody k3.
      destruct (_ && _); [|exact A].
      assert (G : nc (E n) (k4 <- process_descriptor fuel k3 code ac dl true time ;;
                   process_descriptor fuel k4 code ac dl false time)).
      { pose proof (proj1 (IH n k3 code ac dl true time Hc1 Tac Hac Hp) eq_refl A B) as X.
        destruct (process_descriptor fuel k3 code ac dl true time) as [k4| | |] eqn:E4; try exact X.
        cbn [nc bind] in *. destruct (X Oac) as [X1 X2].
        assert (Hc4 : calm T K (k_cfg k4)) by (pose proof (pd_frame _ _ _ _ _ _ _ _ E4) as [-> _]; exact Hc1).
        apply (proj2 (IH n k4 code ac dl false time Hc4 Tac Hac Hp) eq_refl X1 X2). }
      destruct ac; try exact G. contradiction Hac.
Qed.
Lemma holding_has k d i : In d (map snd (filter (fun x => negb (fst x =? 0)%N) (cds (k_cache k)))) ->
  (hzl d i <= Z.of_nat (holding k i))%Z.
Proof.
  intros H. unfold hzl. destruct (holds d i) eqn:Eh; [|lia]. unfold holding.
  apply in_map_iff in H as [x [<- H]]. apply filter_In in H as [H1 H2].
  unfold cds in H1. apply in_map_iff in H1 as [e [<- H1]]. cbn [fst snd] in *.
  assert (In e (filter (fun e => negb (ce_code e =? 0)%N && holds (ce_d e) i) (k_cache k))).
  { apply filter_In. split; auto. now rewrite H2, Eh. }
  destruct (filter _ (k_cache k)) as [|y l]; [contradiction|]. cbn [length]. lia.
Qed.
Lemma start_E c k : inv c -> reach (calm T K) c k ->
  (forall i, K i = false -> (outstanding k i < 255)%N) ->
  E (fun i => Z.of_nat (holding k i)) k /\ L zero k.
Proof.
  intros Hi Hr Ho. pose proof (reach_quiet _ _ Hr) as [Q1 _]. pose proof (reach_history _ _ Hr) as [clk Hh].
  pose proof (history_wf _ _ _ Hi Hh) as W.
  assert (Hr' : reach (tame T K) c k) by (eapply reach_weaken; [|exact Hr]; intros c0 X; apply X).
  assert (Hcount : forall i, K i = false -> l_active (k_ls k i) = outstanding k i).
  { intros i Ki. pose proof (reach_count T K i Ki c k Hr') as X. unfold count in X. rewrite X.
    specialize (Ho i Ki). apply N.mod_small. lia. }
  split; intros i.
  - split.
    + intros Ki. destruct (N.eqb_spec (l_depth (k_ls k i)) 0) as [|Hn]; auto. exfalso.
      pose proof (wk_flags _ W i (or_intror Hn)) as X.
      pose proof (proj2 (tm_layouts _ _ _ (cm_tame _ _ _ Q1) i) Ki) as Y. unfold layer_ref, layout in *. tauto.
    + intros Ki. unfold av. rewrite (Hcount i Ki). unfold outstanding, toggled, oneshots.
      destruct (l_toggled (k_ls k i)); lia.
  - intros Ki. rewrite (Hcount i Ki). specialize (Ho i Ki). unfold zero. lia.
Qed.
Lemma event_nc c k fuel code pressed time : inv c -> reach (calm T K) c k ->
  (forall i, K i = false -> (outstanding k i < 255)%N) ->
  nc (fun _ => True) (process_event fuel k code pressed time).
Proof.
  intros Hi Hr Ho. pose proof (start_E _ _ Hi Hr Ho) as [HE HL]. pose proof (reach_quiet _ _ Hr) as Q.
  destruct fuel as [|fuel]; [exact Logic.I|]. cbn [process_event]. rewrite process_event_plan.
  rewrite (chord_plan_open _ _ _ _ (quiet_no_chord _ _ Q)). cbn [bind run_plan]. unfold after_chord.
  pose proof (quiet_seen _ code pressed time Q) as Q0.
  rewrite (quiet_pass _ _ _ _ Q0). cbn [bind run_pplan].
  apply nc_bind; [|intros k5 _; exact Logic.I].
  apply (E_ls _ _ (chord_seen k code pressed time) eq_refl) in HE.
  apply (L_ls _ _ (chord_seen k code pressed time) eq_refl) in HL.
  assert (At : alld (tame_desc T K) (chord_seen k code pressed time)).
  { change (alld (tame_desc T K) k). apply (reach_alld (tame T K) (tame_desc T K) c); [apply tame_closed|apply tame_all|].
    - exact (reach_weaken _ _ _ _ (fun c X => cm_tame _ _ _ X) Hr). }
  assert (U : uniq (k_cache (chord_seen k code pressed time))) by apply (reach_uniq _ _ _ Hr).
  assert (Hh : forall i, holding k i = holding (chord_seen k code pressed time) i) by reflexivity.
  set (k2 := chord_seen k code pressed time) in *. clearbody k2.
  set (n := fun i => Z.of_nat (holding k i)) in *.
  assert (Hp : pos n) by (intros i; unfold n; lia).
  unfold rest_step.
  assert (X : nc (fun k' => E n k' /\ forall m, L m k2 -> L m k') (expire_oneshot k2 time)).
  { unfold expire_oneshot. destruct (_ && _); [|cbn [nc]; auto].
    eapply nc_bindP; [apply (co_nc n); auto|]. cbv beta. intros k1 [A B]. cbn [nc]. split.
    - eapply E_ls; [apply um_ls|exact A].
    - intros m Hm. apply (L_ls m k1); [apply um_ls|auto]. }
  destruct (expire_oneshot k2 time) as [k3| | |] eqn:E3; try exact X. cbn [bind nc] in *. destruct X as [HE3 HL3].
  specialize (HL3 _ HL). pose proof (quiet_expire _ _ _ Q0 E3) as Q3. rewrite (quiet_macro _ _ _ Q3). cbn [bind].
  pose proof (expire_cp _ _ _ E3) as [C3 Ec]. pose proof (expire_frame _ _ _ E3) as F3.
  assert (At3 : alld (tame_desc T K) k3) by (eapply alld_cp; eauto).
  unfold handle_key. destruct (N.eqb_spec code 0) as [Hz|Hz]; [exact Logic.I|]. destruct pressed.
  - destruct (cache_get k3 code); [exact Logic.I|].
    destruct (lookup_descriptor k3 code) as [d dl] eqn:El.
    destruct (cache_set _ _ _) as [k4|] eqn:E4; [|exact Logic.I].
    pose proof (cache_set_frame _ _ _ _ E4) as [F4 _].
    assert (Hl4 : k_ls k4 = k_ls k3). { apply cache_set_spec in E4 as [j [e [-> _]]]. reflexivity. }
    assert (P1 : calm T K (k_cfg k4)) by (rewrite F4; apply Q3).
    assert (P2 : tame_desc T K d) by (eapply lookup_alld; [apply tame_closed|exact At3|exact El]).
    assert (P3 : calm_desc K d) by (eapply lookup_alld; [apply calm_closed|apply Q3|exact El]).
    eapply nc_true, (proj1 (pd_nc _ n k4 code d dl true time P1 P2 P3 Hp)); auto.
    + eapply E_ls; eauto.
    + eapply L_ls; eauto.
  - destruct (cache_get k3 code) as [j|] eqn:Eg; [|exact Logic.I].
    destruct (cache_set _ _ _) as [k4|] eqn:E4; [|exact Logic.I].
    pose proof (cache_set_frame _ _ _ _ E4) as [F4 _].
    assert (Hl4 : k_ls k4 = k_ls k3). { apply cache_set_spec in E4 as [x [e [-> _]]]. reflexivity. }
    apply cache_find_at in Eg as [_ [Eg1 Eg2]]. rewrite Nat.sub_0_r in *.
    unfold cache_nth. set (d := ce_d (nth j (k_cache k3) zero_ce)).
    assert (Hin : In d (map ce_d (k_cache k3))) by (apply in_map, nth_In, Eg1).
    assert (Hge : forall i, (hzl d i <= n i)%Z).
    { intros i. unfold n. rewrite Hh. apply holding_has. rewrite <- Ec. apply in_map_iff. exists (code, d). split; auto.
      apply filter_In. split; [|cbn [fst]; now destruct (N.eqb_spec code 0)].
      unfold cds. apply in_map_iff. exists (nth j (k_cache k3) zero_ce). split; [now rewrite Eg2|now apply nth_In]. }
    assert (Hp' : pos (fun i => n i - hzl d i)%Z) by (intros i; specialize (Hge i); lia).
    assert (P1 : calm T K (k_cfg k4)) by (rewrite F4; apply Q3).
    assert (P2 : tame_desc T K d) by (destruct At3 as [_ [A _]]; now apply A).
    assert (P3 : calm_desc K d) by (destruct Q3 as [_ [[_ [A _]] _]]; now apply A).
    eapply nc_true, (proj2 (pd_nc _ (fun i => n i - hzl d i)%Z k4 code d _ false time P1 P2 P3 Hp')); auto.
    + intros i. unfold addn. replace (n i - hzl d i + hzl d i)%Z with (n i) by lia. rewrite Hl4. apply HE3.
    + intros _ i Hi'. rewrite Hl4. specialize (HL3 i Hi'). unfold zero, hzl in *. destruct (holds d i); lia.
Qed.
Lemma along_reach c fuel k evs k' : reach (calm T K) c k -> along fuel k evs k' -> reach (calm T K) c k'.
Proof.
  intros H A. induction A; auto; apply IHA; eapply reach_events; try exact H; apply one_event; eassumption.
Qed.
Lemma loop_nc c : inv c -> forall fuel f k evs t ts, reach (calm T K) c k ->
  (forall k', along f k evs k' -> forall i, K i = false -> (outstanding k' i < 255)%N) ->
  nc (fun _ => True) (pe_loop (process_event f) fuel k evs t ts).
Proof.
  intros Hi. induction fuel as [|fuel IH]; intros f k evs t ts Hr Ho; destruct evs as [|ev rest]; cbn [pe_loop]; try exact Logic.I.
  assert (Ho1 : forall i, K i = false -> (outstanding k i < 255)%N) by (apply Ho, along_here).
  destruct (_ && _).
  - apply nc_bind; [eapply event_nc; eauto|]. intros [k1 t1] E1. apply IH.
    + eapply reach_events; [exact Hr|apply one_event; eassumption].
    + intros k' A. apply Ho. eapply along_tick; eauto.
  - apply nc_bind; [eapply event_nc; eauto|]. intros [k1 t1] E1. apply IH.
    + eapply reach_events; [exact Hr|apply one_event; eassumption].
    + intros k' A. apply Ho. eapply along_event; eauto.
Qed.
End Calm.
