(* What the press of a swap key does. *)
From Verif Require Import Base Lib Keys Types MacroExec Kbd Config Steps Hist SpecTrace SpecMods SpecLookup
  SpecHist SpecActions SpecKept SpecSwap TraceProofs ModsProofs LookupProofs Engine SpecWf Wf ActProofs StepProofs OneProofs
  CacheProofs Inv ClassInv ParseWf WfHist KeptProofs StuckProofs.
Local Open Scope N_scope.

Lemma switches_app a b : switches (a ++ b) = switches a ++ switches b.
Proof. induction a as [|[] a IH]; cbn [switches app]; rewrite ?IH; auto. Qed.
Lemma switches_none o : forallb no_layer o = true -> switches o = [].
Proof. induction o as [|[] o IH]; cbn; auto. discriminate. Qed.

(* the state after the layers have been switched: modifiers follow, then the trace *)
Definition switched (k k' : kbd) (a b : nat) : Prop :=
  moves k k' a b /\ (exists new, since k k' new /\ switches new = [(b, true); (a, false)])
  /\ k_cfg k' = k_cfg k.

Lemma set_ce_layer_zero c i e : In e c -> ce_code e <> 0 -> In e (set_ce_layer c 0 i).
Proof.
  intros He Hn. unfold set_ce_layer. destruct (cache_find c 0 0) as [j|] eqn:E; auto.
  apply cache_find_at in E as [_ [E1 E2]]. rewrite Nat.sub_0_r in *.
  apply In_nth with (d := zero_ce) in He as [n [Hn1 Hn2]].
  assert (j <> n) by (intros ->; congruence).
  rewrite <- Hn2, <- (nth_upd_other j n (mkCe (ce_code (nth j c zero_ce)) (ce_d (nth j c zero_ce)) (ce_dl (nth j c zero_ce)) i)) by auto.
  apply nth_In. now rewrite upd_length.
Qed.

Definition mods_ks (k : kbd) : Prop :=
  forall bit c, is_modifier bit c -> (k_ks k c = true <-> lit k bit).
Lemma update_mods_ks k : mods_ks (update_mods false k None 0).
Proof.
  intros bit c Hm. rewrite (keys_only_lit k); [|apply update_mods_only].
  unfold update_mods. rewrite (set_mods_modifier _ _ _ _ _ Hm). apply active_mods_lit.
Qed.

Ltac fields := cbn [k_ls k_cache k_out k_cfg set_k_ls set_k_cache set_k_out set_k_clock lsn kk set_k_ks set_k_last_out set_lsi
  l_active l_toggled l_depth set_l_active set_l_toggled set_l_depth].
Ltac fields_in H := cbn [k_ls k_cache k_out k_cfg k_clock set_k_ls set_k_cache set_k_out set_k_clock lsn kk set_k_ks set_k_last_out set_lsi
  l_active l_toggled l_depth set_l_active set_l_toggled set_l_depth] in H.
Ltac at_layers :=
  repeat match goal with
  | |- context [nupd ?f ?j ?x ?i] =>
      destruct (Nat.eq_dec i j) as [?|?]; [subst; rewrite (nupd_same f j x)|rewrite (nupd_other f j i x) by auto];
      fields
  | |- context [Nat.eqb ?a ?a] => rewrite (Nat.eqb_refl a)
  | |- context [Nat.eqb ?a ?b] => destruct (Nat.eqb_spec a b); try congruence
  end.

Lemma swap_toggled k dl l k' : do_swap k dl l = Ok k' -> toggled k dl = true ->
  switched k k' dl l
  /\ (forall i, toggled k' i = if Nat.eqb i l then true else if Nat.eqb i dl then false else toggled k i)
  /\ (forall i, oneshots k' i = oneshots k i)
  /\ bindings_kept (fun _ => True) k k' /\ mods_ks k'.
Proof.
  intros H Ht. unfold do_swap in H. bstep H u Eu. bstep H u2 Eu2.
  unfold toggled in Ht. rewrite Ht in H. bstep H k1 E1. bstep H k3 E3. apply Ok_inj in H.
  apply deactivate_ok in E1 as [E1 [b1 ->]]. apply activate_ok in E3 as [b3 ->]. fields_in H.
  rewrite nupd_same in H. fields_in H.
  match type of H with update_mods false ?x None 0 = _ => pose proof (update_mods_ks x) as Hm;
    destruct (update_mods_grow false x None 0) as [ll [ss [oo [Eq Ho]]]] end.
  rewrite <- H in *. clear H. rewrite Eq in *. clear Eq.
  split; [|split; [|split; [|split; [|exact Hm]]]].
  - split; [|split].
    + split; [exact E1|]. intros i. unfold count. fields. at_layers; try reflexivity; try congruence.
    + eexists (oo ++ [OLayer l true b3; OLayer dl false b1]). split.
      * unfold since. fields. now rewrite <- app_assoc.
      * rewrite switches_app, switches_none by auto. reflexivity.
    + reflexivity.
  - intros i. unfold toggled. fields. at_layers; try reflexivity; try congruence.
  - intros i. unfold oneshots. fields. at_layers; try reflexivity; try congruence.
  - intros e He Hn _. fields. now apply set_ce_layer_zero.
Qed.
Lemma swap_oneshot k dl l k' : do_swap k dl l = Ok k' -> toggled k dl = false -> oneshots k dl <> 0 ->
  switched k k' dl l
  /\ (forall i, toggled k' i = toggled k i)
  /\ (forall i, oneshots k' i =
        let n := if Nat.eqb i dl then oneshots k i - 1 else oneshots k i in
        if Nat.eqb i l then (n + 1) mod 256 else n)
  /\ bindings_kept (fun _ => True) k k' /\ mods_ks k'.
Proof.
  intros H Ht Hd. unfold do_swap in H. bstep H u Eu. bstep H u2 Eu2.
  unfold toggled in Ht. rewrite Ht in H. unfold oneshots in Hd.
  rewrite (proj2 (N.eqb_neq _ _) Hd) in H. cbn [negb] in H.
  bstep H k1 E1. bstep H k3 E3. apply Ok_inj in H.
  apply deactivate_ok in E1 as [E1 [b1 ->]]. apply activate_ok in E3 as [b3 ->]. fields_in H.
  rewrite nupd_same in H. fields_in H.
  match type of H with update_mods false ?x None 0 = _ => pose proof (update_mods_ks x) as Hm;
    destruct (update_mods_grow false x None 0) as [ll [ss [oo [Eq Ho]]]] end.
  rewrite <- H in *. clear H. rewrite Eq in *. clear Eq.
  split; [|split; [|split; [|split; [|exact Hm]]]].
  - split; [|split].
    + split; [exact E1|]. intros i. unfold count. fields. at_layers; try reflexivity; try congruence.
    + eexists (oo ++ [OLayer l true b3; OLayer dl false b1]). split.
      * unfold since. fields. now rewrite <- app_assoc.
      * rewrite switches_app, switches_none by auto. reflexivity.
    + reflexivity.
  - intros i. unfold toggled. fields. at_layers; try reflexivity; try congruence.
  - intros i. unfold oneshots. fields. at_layers; try reflexivity; try congruence.
  - intros e He Hn _. fields. now apply set_ce_layer_zero.
Qed.

Lemma swap_slot_spec k dl : forall c i,
  match swap_slot k c dl i with
  | Some j => (i <= j)%nat /\ (j - i < length c)%nat
      /\ ce_layer (nth (j - i) c zero_ce) = dl /\ ce_code (nth (j - i) c zero_ce) <> 0 /\ ordinary k dl
  | None => ordinary k dl -> forall e, In e c -> ce_code e <> 0 -> ce_layer e <> dl
  end.
Proof.
  induction c as [|e r IH]; intros i; cbn [swap_slot]; [intros _ e []|].
  match goal with |- match (if ?b then _ else _) with _ => _ end => destruct b eqn:E end.
  - rewrite Nat.sub_diag. cbn [length nth]. rewrite !andb_true_iff, !negb_true_iff in E.
    destruct E as [[[E1 E2] E3] E4]. apply Nat.eqb_neq in E4. apply N.eqb_neq in E1. apply Nat.eqb_eq in E2.
    rewrite E2 in *. split; [lia|]. split; [lia|]. split; [reflexivity|]. split; [exact E1|]. split; [exact E4|].
    unfold layer_of. unfold layer_at in E3. destruct (ly_type _); auto; discriminate.
  - specialize (IH (S i)). destruct (swap_slot k r dl (S i)) as [j|].
    + destruct IH as [A [B [C [C2 C3]]]]. cbn [length]. replace (j - i)%nat with (S (j - S i)) by lia.
      cbn [nth]. repeat split; auto; try lia; apply C3.
    + intros Ho x [<-|Hx] Hn; [|now apply IH]. intros Hl. rewrite Hl in E.
      rewrite (proj2 (N.eqb_neq _ _) Hn), Nat.eqb_refl in E. destruct Ho as [O1 O2].
      rewrite (proj2 (Nat.eqb_neq _ _) O1) in E. unfold layer_of in O2. unfold layer_at in E. rewrite O2 in E. discriminate.
Qed.

Lemma swap_held k dl l k' : uniq (k_cache k) -> do_swap k dl l = Ok k' -> toggled k dl = false -> oneshots k dl = 0 ->
  (k' = k /\ (ordinary k dl -> forall e, In e (k_cache k) -> ce_code e <> 0 -> ce_layer e <> dl))
  \/ exists h d0 dh, h <> 0 /\ ordinary k dl /\ In (mkCe h d0 dh dl) (k_cache k) /\ In (mkCe h (DLayer l) dh l) (k_cache k')
     /\ bindings_kept (fun c => c <> h) k k'
     /\ switched k k' dl l
     /\ (forall i, toggled k' i = toggled k i) /\ (forall i, oneshots k' i = oneshots k i) /\ mods_ks k'.
Proof.
  intros U H Ht Hd. unfold do_swap in H. bstep H u Eu. bstep H u2 Eu2.
  unfold toggled in Ht. rewrite Ht in H. unfold oneshots in Hd. rewrite Hd in H. cbn [N.eqb negb] in H.
  pose proof (swap_slot_spec k dl (k_cache k) 0) as Sp.
  destruct (swap_slot k (k_cache k) dl 0) as [j|]; [|left; apply Ok_inj in H; auto].
  right. rewrite Nat.sub_0_r in Sp. destruct Sp as [_ [S1 [S2 [S3 S4]]]].
  set (e := nth j (k_cache k) zero_ce) in *.
  bstep H k1 E1. bstep H k3 E3. apply Ok_inj in H.
  apply deactivate_ok in E1 as [E1 [b1 ->]]. apply activate_ok in E3 as [b3 ->]. fields_in H. fields_in E1.
  match type of H with update_mods false ?x None 0 = _ => pose proof (update_mods_ks x) as Hm;
    destruct (update_mods_grow false x None 0) as [ll [ss [oo [Eq Ho]]]] end.
  rewrite <- H in *. clear H. rewrite Eq in *. clear Eq.
  set (c1 := upd j (mkCe (ce_code e) (DLayer l) (ce_dl e) (ce_layer e)) (k_cache k)) in *.
  assert (Ec : set_ce_layer c1 (ce_code e) l = upd j (mkCe (ce_code e) (DLayer l) (ce_dl e) l) (k_cache k)).
  { unfold set_ce_layer. destruct (cache_find c1 (ce_code e) 0) as [i|] eqn:Ei.
    - apply cache_find_at in Ei as [_ [J1 J2]]. rewrite Nat.sub_0_r in *.
      assert (i = j).
      { destruct (Nat.eq_dec i j) as [|Hne]; auto. exfalso.
        assert (Hj : ce_code (nth i (k_cache k) zero_ce) = ce_code e).
        { rewrite <- J2. subst c1. now rewrite nth_upd_other by auto. }
        apply Hne. apply U; auto; [|congruence]. subst c1. now rewrite upd_length in J1. }
      subst i. subst c1. rewrite upd_upd. rewrite nth_upd_same by auto. reflexivity.
    - exfalso. apply (cache_find_none _ _ _ Ei (nth j c1 zero_ce)).
      { apply nth_In. subst c1. now rewrite upd_length. }
      subst c1. now rewrite nth_upd_same. }
  exists (ce_code e), (ce_d e), (ce_dl e). split; [exact S3|]. split; [exact S4|]. split; [|split; [|split; [|split; [|split; [|split]]]]].
  - rewrite <- S2. replace (mkCe _ _ _ _) with e by (destruct e; reflexivity). now apply nth_In.
  - fields. rewrite Ec. rewrite <- (nth_upd_same j (mkCe (ce_code e) (DLayer l) (ce_dl e) l) zero_ce (k_cache k)) at 1 by auto.
    apply nth_In. now rewrite upd_length.
  - intros x Hx Hn Hne. fields. rewrite Ec. apply In_nth with (d := zero_ce) in Hx as [i [I1 I2]].
    assert (j <> i) by (intros ->; apply Hne; unfold e; now rewrite I2).
    rewrite <- I2, <- (nth_upd_other j i (mkCe (ce_code e) (DLayer l) (ce_dl e) l)) by auto.
    apply nth_In. now rewrite upd_length.
  - split; [|split].
    + split; [exact E1|]. intros i. clear S2. unfold count. fields. at_layers; try reflexivity; try congruence.
    + eexists (oo ++ [OLayer l true b3; OLayer dl false b1]). split.
      * unfold since. fields. now rewrite <- app_assoc.
      * rewrite switches_app, switches_none by auto. reflexivity.
    + reflexivity.
  - intros i. clear S2. unfold toggled. fields. at_layers; try reflexivity; try congruence.
  - intros i. clear S2. unfold oneshots. fields. at_layers; try reflexivity; try congruence.
  - exact Hm.
Qed.

(* ---- a held key keeps exactly one layer on, through any number of swaps ----------- *)
Section Handed.
Variables (code : N) (d : desc) (dl l : nat).
Hypothesis Hcode : code <> 0%N.

Definition same_or_handed (k : kbd) : Prop :=
  exists d' l', remembered k code d' dl l' /\ ((d' = d /\ l' = l) \/ d' = DLayer l').
Definition carried (k : kbd) : Prop :=
  (uniq (k_cache k) /\ (length (k_achords k) <= 3)%nat) /\ same_or_handed k /\ p_code (k_pend k) <> code.

Lemma evols_handed c' k k' : c' <> code -> same_or_handed k -> evols True c' k k' -> same_or_handed k'.
Proof.
  unfold same_or_handed, remembered, evols. intros Hc [d' [l' [H Hx]]] E.
  induction E as [|e e' r r' [E1 [E2 [E3 E4]]] _ IH]; [destruct H|].
  destruct H as [->|H].
  - cbn [ce_code] in E4. destruct (E4 Hcode (not_eq_sym Hc)) as [->|[l2 ->]]; cbn [ce_code ce_dl].
    + exists d', l'. split; [now left|exact Hx].
    + exists (DLayer l2), l2. split; [now left|now right].
  - destruct (IH H) as [d2 [l2 [A B]]]. exists d2, l2. split; [now right|exact B].
Qed.
Lemma cache_set_handed k c' ent k' : c' <> code -> cache_set k c' ent = Some k' ->
  same_or_handed k -> same_or_handed k'.
Proof.
  intros Hc H [d' [l' [R Hx]]]. exists d', l'. split; [|exact Hx].
  eapply cache_set_kept; eauto.
Qed.
Lemma pd_carried fuel k c' d' dl' pressed time k' : c' <> code ->
  process_descriptor fuel k c' d' dl' pressed time = Ok k' -> carried k -> carried k'.
Proof.
  intros Hc H [[U L] [R Hp]].
  pose proof (pd_frame _ _ _ _ _ _ _ _ H) as [F1 [F2 [F3 [F4 [F5 F6]]]]].
  pose proof (pd_pcode _ _ _ _ _ _ _ _ H) as P.
  split; [split; [eapply pd_uniq; eauto|now rewrite F4]|split].
  - assert (E : evols True c' k k') by (eapply (pd_evols True); eauto).
    exact (evols_handed _ _ _ Hc R E).
  - destruct P as [->| ->]; auto.
Qed.
Lemma same_cache_carried k k' : carried k -> frame k k' -> cp k k' -> k_cache k' = k_cache k -> carried k'.
Proof.
  intros [[U L] [R Hp]] F C E. pose proof F as [F1 [F2 [F3 [F4 [F5 F6]]]]].
  split; [split; [now rewrite E|now rewrite F4]|split].
  - unfold same_or_handed, remembered. now rewrite E.
  - destruct C as [-> _]. auto.
Qed.
Lemma cache_set_carried k c' ent k' : c' <> code -> cache_set k c' ent = Some k' -> carried k -> carried k'.
Proof.
  intros Hc H [[U L] [R Hp]].
  pose proof (cache_set_frame _ _ _ _ H) as [F1 [F2 [F3 [F4 [F5 F6]]]]].
  assert (Ep : k_pend k' = k_pend k).
  { apply cache_set_spec in H as [i [e [-> _]]]. reflexivity. }
  split; [split; [eapply cache_set_uniq; eauto|now rewrite F4]|split].
  - exact (cache_set_handed _ _ _ _ Hc H R).
  - now rewrite Ep.
Qed.
Lemma handle_key_carried k c' pressed time k' : c' <> code ->
  handle_key k c' pressed time = Ok k' -> carried k -> carried k'.
Proof.
  intros Hc H K. unfold handle_key in H. destruct (c' =? 0)%N; [apply Ok_inj in H; now subst|].
  destruct pressed.
  - destruct (cache_get k c'); [apply Ok_inj in H; now subst|].
    destruct (lookup_descriptor k c') as [d' dl'] eqn:El.
    destruct (cache_set _ _ _) as [k1|] eqn:E; [|apply Ok_inj in H; now subst].
    eapply pd_carried; [exact Hc|exact H|]. eapply cache_set_carried; eauto.
  - destruct (cache_get k c') as [i|] eqn:Eg; [|apply Ok_inj in H; now subst].
    destruct (cache_set _ _ _) as [k1|] eqn:E; [|apply Ok_inj in H; now subst].
    eapply pd_carried; [exact Hc|exact H|]. eapply cache_set_carried; eauto.
Qed.
Lemma events_carried fuel k evs k' t : physical code -> Forall (about_others code) evs ->
  kbd_process_events fuel k evs = Ok (k', t) -> carried k -> decided k code -> carried k' /\ decided k' code.
Proof.
  intros Hph He H K [D1 [D2 D3]].
  assert (G : IQ carried (about_others code) k').
  { apply (simple_events carried (about_others code)) with (fuel := fuel) (k := k) (evs := evs) (t := t); auto.
    - intros t0 Ex. apply Hcode. symmetry. exact Ex.
    - intros k0 i p t0 [[_ L] _] Hi Ex. destruct Hph as [_ Hn]. apply Hn.
      cbn [ev_code] in Ex. rewrite <- Ex. unfold chord_code, K_CHORD_1, K_CHORD_MAX. lia.
    - intros k0 k1 [[U L] [R Hp]] C. pose proof C as [q [acs [ts [-> [La _]]]]].
      split; [split; [exact U|cbn; lia]|split; [exact R|exact Hp]].
    - intros k0 q a time k1 K0 Hp Ha Ho Hd. unfold decide in Hd. cbn [p_code p_dl set_p_queue] in Hd.
      assert (Hpc : p_code (k_pend k0) <> code) by apply K0.
      eapply pd_carried; [exact Hpc|exact Hd|].
      set (k2 := set_k_pend (set_p_code 0%N (set_p_queue [] (set_p_queue q (k_pend k0)))) k0).
      assert (K2 : carried k2).
      { destruct K0 as [[U L] [R Hq]]. split; [split; [exact U|exact L]|split; [exact R|]].
        intros Ex. apply Hcode. symmetry. exact Ex. }
      destruct (cache_set k2 _ _) as [k3|] eqn:E; [|exact K2].
      eapply cache_set_carried; eauto.
    - intros k0 c' pressed time k1 K0 Hq Hr. unfold rest_step in Hr. bstep Hr k3 E3. bstep Hr k4 E4.
      eapply handle_key_carried; [exact Hq|exact Hr|].
      apply (same_cache_carried k3); [|eapply run_macro_frame; eauto|eapply run_macro_cp; eauto|eapply run_macro_cp; eauto].
      apply (same_cache_carried k0); [exact K0|eapply expire_frame; eauto|eapply expire_cp; eauto|eapply expire_cp; eauto].
    - split; auto. split; apply Forall_forall; auto. unfold live. intros e He0. apply D3.
      + unfold striking. destruct (h_state _); auto; destruct He0.
      + destruct (h_state _); auto; destruct He0. }
  destruct G as [G1 [G2 G3]]. split; auto. rewrite Forall_forall in *. split; [apply G1|]. split; auto.
  intros Hs e He1. apply G2. unfold live. destruct Hs as [-> | ->]; exact He1.
Qed.
Lemma meanwhile_carried (G : config -> Prop) k k' : physical code -> meanwhile G code k k' ->
  carried k -> decided k code -> carried k' /\ decided k' code.
Proof.
  intros Hph M. induction M as [k|k fuel evs k1 t k2 He H M IH|k exp k1 ok k2 H Hg M IH]; intros K D; auto.
  - destruct (events_carried _ _ _ _ _ Hph He H K D) as [K1 D1]. auto.
  - apply kbd_eval_shape in H as [c ->]. apply IH; [|exact D]. exact K.
Qed.
End Handed.

Lemma set_ce_layer_own c code d dl x i : uniq c -> code <> 0 -> In (mkCe code d dl x) c ->
  In (mkCe code d dl i) (set_ce_layer c code i).
Proof.
  intros U Hc Hin. unfold set_ce_layer. destruct (cache_find c code 0) as [j|] eqn:E.
  - apply cache_find_at in E as [_ [E1 E2]]. rewrite Nat.sub_0_r in *.
    apply In_nth with (d := zero_ce) in Hin as [n [N1 N2]].
    assert (j = n) by (apply U; auto; rewrite ?N2, ?E2; auto). subst n. rewrite N2. cbn [ce_code ce_d ce_dl].
    rewrite <- (nth_upd_same j (mkCe code d dl i) zero_ce c) at 1 by auto. apply nth_In. now rewrite upd_length.
  - exfalso. exact (cache_find_none _ _ _ E _ Hin eq_refl).
Qed.

Definition layer_action (d : desc) (l : nat) : Prop := d = DLayer l \/ exists m, d = DLayerM l m.
Lemma do_layer_remembers k code d l dl time k' x : uniq (k_cache k) -> code <> 0 -> layer_action d l ->
  In (mkCe code d dl x) (k_cache k) -> do_desc k code d dl true time = Ok k' -> In (mkCe code d dl l) (k_cache k').
Proof.
  intros U Hc Hd Hin E. unfold do_desc in E. destruct (pd_fuel k) as [|f]; [discriminate|].
  apply pd_unfold in E as [ka [kb [E1 [-> E2]]]].
  pose proof (pre_macro_cache _ _ _ _ _ E1) as [C1 _].
  assert (E3 : pd_layer ka code l true = Ok kb) by (destruct Hd as [->|[m ->]]; exact E2).
  clear E1 E2. unfold pd_layer in E3. bstep E3 k3 E4. apply Ok_inj in E3. subst kb.
  destruct (update_mods_only (k_last_code k3 =? code) k3 None 0) as [x1 [x2 [x3 ->]]].
  apply activate_ok in E4 as [b ->]. cbn [k_cache set_k_last_code kk set_k_cache set_k_out set_k_ks set_k_last_out].
  rewrite C1. eapply set_ce_layer_own; eauto.
Qed.
Lemma press_layer_remembers (G : config -> Prop) c fuel k code time d l dl k1 t1 :
  reach G c k -> ready k code time -> layer_action d l -> resolves k code d dl ->
  process_event fuel k code true time = Ok (k1, t1) ->
  decided k1 code /\ remembered k1 code d dl l.
Proof.
  intros Hr Hy Hd Hres H.
  assert (Hf : fixed_at_press d) by (destruct Hd as [->|[m ->]]; exact Logic.I).
  split; [exact (proj1 (press_remembers _ _ _ _ _ _ _ _ _ _ Hr Hy Hres Hf H))|].
  pose proof (press_do _ _ _ _ _ _ _ _ (proj2 (reach_times _ _ _ Hr)) Hy Hres H) as [k0 [k2 [P [E ->]]]].
  destruct P as [q [i [-> [Hi [Hz Hq]]]]].
  unfold remembered. cbn [k_cache set_k_timeouts].
  eapply do_layer_remembers; [| |exact Hd| |exact E].
  - cbn [k_cache set_k_cache]. apply uniq_upd; [apply (reach_uniq _ _ _ Hr)|exact Hi|]. right. right. apply Hy.
  - apply Hy.
  - cbn [k_cache set_k_cache]. rewrite <- (nth_upd_same i (mkCe code d dl 0) zero_ce (k_cache k) Hi) at 1.
    apply nth_In. now rewrite upd_length.
Qed.
