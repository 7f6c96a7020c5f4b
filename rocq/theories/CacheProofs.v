(* What a single action does to the table of held keys (struct cache_entry). *)
From Verif Require Import Base Lib Keys Types MacroExec Kbd SpecMods SpecLookup SpecHist SpecActions
  ModsProofs LookupProofs Engine SpecWf Wf ActProofs OneProofs.

Definition is_swap (d : desc) : bool :=
  match d with DSwap _ | DSwapM _ _ => true | _ => false end.

(* the entry of another key changes only if that key holds a layer (swap), and
   only to layer(...) of another layer *)
Definition handed (e e' : centry) : Prop :=
  exists l, e' = mkCe (ce_code e) (DLayer l) (ce_dl e) l.
Definition evol (sw : Prop) (code : N) (e e' : centry) : Prop :=
  ce_code e' = ce_code e /\ ce_dl e' = ce_dl e
  /\ (ce_code e <> 0%N -> ce_code e <> code -> ~ sw \/ ce_layer e = 0 -> e' = e)
  /\ (ce_code e <> 0%N -> ce_code e <> code -> e' = e \/ handed e e').
Definition evols (sw : Prop) (code : N) (k k' : kbd) : Prop := Forall2 (evol sw code) (k_cache k) (k_cache k').

Lemma evol_refl sw code e : evol sw code e e.
Proof. repeat split; auto. Qed.
Lemma evol_trans sw code a b c : evol sw code a b -> evol sw code b c -> evol sw code a c.
Proof.
  intros [A1 [A2 [A3 A4]]] [B1 [B2 [B3 B4]]]. split; [congruence|]. split; [congruence|]. split.
  - intros H1 H2 H3. rewrite B3; rewrite ?A1; auto. rewrite (A3 H1 H2 H3). auto.
  - intros H1 H2. unfold handed in *. destruct (A4 H1 H2) as [->|[l ->]].
    + destruct (B4 H1 H2) as [->|[l ->]]; eauto.
    + destruct (B4 H1 H2) as [->|[l' ->]]; cbn [ce_code ce_dl]; eauto.
Qed.
Lemma Forall2_refl {A} (R : A -> A -> Prop) (l : list A) : (forall x, R x x) -> Forall2 R l l.
Proof. intros H. induction l; constructor; auto. Qed.
Lemma Forall2_trans {A} (R : A -> A -> Prop) (a b c : list A) :
  (forall x y z, R x y -> R y z -> R x z) -> Forall2 R a b -> Forall2 R b c -> Forall2 R a c.
Proof.
  intros H H1. revert c. induction H1; intros c Hc; inversion Hc; subst; constructor; eauto.
Qed.
Lemma evols_refl sw code k k' : k_cache k' = k_cache k -> evols sw code k k'.
Proof. intros H. unfold evols. rewrite H. apply Forall2_refl, evol_refl. Qed.
Lemma evols_trans sw code a b c : evols sw code a b -> evols sw code b c -> evols sw code a c.
Proof. apply Forall2_trans, evol_trans. Qed.
Lemma evols_ext sw code k k' k2 : k_cache k2 = k_cache k' -> evols sw code k k' -> evols sw code k k2.
Proof. unfold evols. now intros ->. Qed.

Lemma Forall2_upd {A} (R : A -> A -> Prop) : forall (l : list A) i x d,
  (forall y, R y y) -> (i < length l -> R (nth i l d) x) -> Forall2 R l (upd i x l).
Proof.
  induction l as [|y l IH]; intros [|i] x d Hr Hx; cbn [upd]; try constructor; auto.
  - apply Hx. cbn [length]. lia.
  - apply Forall2_refl; auto.
  - apply (IH i x d); auto. intros Hi. apply Hx. cbn [length]. lia.
Qed.

Lemma cache_find_at code : forall c i j, cache_find c code i = Some j ->
  i <= j /\ j - i < length c /\ ce_code (nth (j - i) c zero_ce) = code.
Proof.
  induction c as [|e r IH]; intros i j H; cbn [cache_find] in H; [discriminate|].
  destruct (N.eqb_spec (ce_code e) code) as [E|E].
  - injection H as <-. rewrite Nat.sub_diag. cbn [length nth]. repeat split; auto; lia.
  - apply IH in H as [H1 [H2 H3]]. cbn [length]. split; [lia|]. split; [lia|].
    replace (j - i) with (S (j - S i)) by lia. exact H3.
Qed.

Lemma cache_find_none code : forall c i, cache_find c code i = None -> forall e, In e c -> ce_code e <> code.
Proof.
  induction c as [|e r IH]; intros i H x Hx; [destruct Hx|]. cbn [cache_find] in H.
  destruct (N.eqb_spec (ce_code e) code) as [E|E]; [discriminate|]. destruct Hx as [->|Hx]; eauto.
Qed.

Lemma set_ce_layer_evol sw code c0 c idx :
  c0 = code \/ c0 = 0%N ->
  Forall2 (evol sw code) c (set_ce_layer c c0 idx).
Proof.
  intros Hz. unfold set_ce_layer. destruct (cache_find c c0 0) as [i|] eqn:E; [|apply Forall2_refl, evol_refl].
  apply cache_find_at in E as [_ [E1 E2]]. rewrite Nat.sub_0_r in *.
  apply (Forall2_upd _ _ _ _ zero_ce); [apply evol_refl|]. intros _. split; [reflexivity|]. split; [reflexivity|].
  split; intros H1 H2; destruct Hz; congruence.
Qed.
Lemma activate_evols sw code c0 k i k' : c0 = code \/ c0 = 0%N ->
  activate_layer k c0 i = Ok k' -> evols sw code k k'.
Proof.
  intros Hz H. apply activate_ok in H as [b ->]. unfold evols.
  cbn [k_cache set_k_cache]. now apply set_ce_layer_evol.
Qed.
Lemma deactivate_cache k i k' : deactivate_layer k i = Ok k' -> k_cache k' = k_cache k.
Proof. intros H. apply deactivate_ok in H as [_ [b ->]]. reflexivity. Qed.
Lemma update_mods_cache a k b c : k_cache (update_mods a k b c) = k_cache k.
Proof. destruct (update_mods_only a k b c) as [l [s [o ->]]]. reflexivity. Qed.
Lemma execute_macro_cache k dl m : k_cache (execute_macro k dl m) = k_cache k.
Proof. destruct (execute_macro_only k dl m) as [l [s [o ->]]]. reflexivity. Qed.
Lemma send_key_cache k c p : k_cache (send_key k c p) = k_cache k.
Proof. destruct (send_key_only k c p) as [l [s [o ->]]]. reflexivity. Qed.
Lemma clear_oneshot_cache k k' : clear_oneshot k = Ok k' -> k_cache k' = k_cache k.
Proof. intros H. apply clear_oneshot_ok in H as [ls [ns [-> _]]]. reflexivity. Qed.
Lemma clear_cache k k' : clear k = Ok k' -> k_cache k' = k_cache k.
Proof.
  intros H. apply clear_ok in H as [ls [ns [-> _]]].
  match goal with |- context [reset_keystate ?a] => destruct (reset_keystate_grow a) as [l [s [o [-> _]]]] end.
  reflexivity.
Qed.
Lemma setlayout_cache k i k' : setlayout k i = Ok k' -> k_cache k' = k_cache k.
Proof.
  unfold setlayout. intros H.
  assert (G : forall l k, k_cache (fold_left drop_layout l k) = k_cache k).
  { clear. induction l; cbn [fold_left]; intros; auto. rewrite IHl. unfold drop_layout. now destruct (is_layout _). }
  bstep H u Eu. bstep H k1 E1. apply Ok_inj in H. subst k'. cbn [emit set_k_out k_cache].
  rewrite <- (clear_cache _ _ E1). destruct (Nat.eqb i 0); cbn [k_cache set_lsi set_k_ls]; apply G.
Qed.

Lemma upd_upd {A} : forall i (x y : A) l, upd i x (upd i y l) = upd i x l.
Proof. induction i; intros x y [|z l]; cbn [upd]; auto. now rewrite IHi. Qed.

Lemma swap_slot_at k dl : forall c i j, swap_slot k c dl i = Some j ->
  i <= j /\ j - i < length c /\ ce_layer (nth (j - i) c zero_ce) <> 0
  /\ ce_code (nth (j - i) c zero_ce) <> 0%N.
Proof.
  induction c as [|e r IH]; intros i j H; cbn [swap_slot] in H; [discriminate|].
  match type of H with (if ?b then _ else _) = _ => destruct b eqn:E end.
  - injection H as <-. rewrite Nat.sub_diag. cbn [length nth]. rewrite !andb_true_iff, !negb_true_iff in E.
    destruct E as [[[E1 E2] E3] E4]. apply Nat.eqb_neq in E4. apply N.eqb_neq in E1. repeat split; auto; lia.
  - apply IH in H as [H1 [H2 [H3 H4]]]. cbn [length]. split; [lia|]. split; [lia|].
    replace (j - i) with (S (j - S i)) by lia. auto.
Qed.

(* no two entries for the same key *)
Definition uniq (c : list centry) : Prop :=
  forall i j, i < length c -> j < length c ->
     ce_code (nth i c zero_ce) = ce_code (nth j c zero_ce) -> ce_code (nth i c zero_ce) <> 0%N -> i = j.
Lemma codes_nth c c' i : map ce_code c' = map ce_code c ->
  ce_code (nth i c' zero_ce) = ce_code (nth i c zero_ce).
Proof.
  intros H. rewrite <- !(map_nth ce_code). now rewrite H.
Qed.
Lemma uniq_codes c c' : map ce_code c' = map ce_code c -> uniq c -> uniq c'.
Proof.
  intros H U i j Hi Hj. rewrite !(codes_nth _ _ _ H).
  assert (L : length c' = length c) by (rewrite <- (map_length ce_code), H; apply map_length).
  rewrite L in *. now apply U.
Qed.
Lemma evols_codes sw code k k' : evols sw code k k' -> map ce_code (k_cache k') = map ce_code (k_cache k).
Proof.
  unfold evols. intros H. induction H as [|e e' r r' [E _] _ IH]; auto. cbn [map]. congruence.
Qed.
Lemma evols_uniq sw code k k' : evols sw code k k' -> uniq (k_cache k) -> uniq (k_cache k').
Proof. intros H. apply uniq_codes. eapply evols_codes; eauto. Qed.

(* a swap rewrites the entry holding the layer, and its layer field *)
Lemma do_swap_evols code k dl idx k' : do_swap k dl idx = Ok k' ->
  uniq (k_cache k) ->
  evols True code k k'.
Proof.
  intros H U. unfold do_swap in H. bstep H u Eu. bstep H u2 Eu2.
  destruct (l_toggled (k_ls k dl)).
  - bstep H k1 E1. bstep H k3 E3. apply Ok_inj in H. subst k'.
    eapply evols_ext; [apply update_mods_cache|]. cbn [k_cache set_lsi set_k_ls].
    apply (evols_trans True code _ k1); [apply evols_refl; eapply deactivate_cache; eauto|].
    now apply (activate_evols True code 0%N) in E3; auto.
  - destruct (negb _).
    + bstep H k1 E1. bstep H k3 E3. apply Ok_inj in H. subst k'.
      eapply evols_ext; [apply update_mods_cache|]. cbn [k_cache set_lsi set_k_ls].
      apply (evols_trans True code _ k1); [apply evols_refl; eapply deactivate_cache; eauto|].
      now apply (activate_evols True code 0%N) in E3; auto.
    + destruct (swap_slot k (k_cache k) dl 0) as [i|] eqn:Es.
      2: { apply Ok_inj in H. subst. now apply evols_refl. }
      apply swap_slot_at in Es as [_ [S1 [S2 S3]]]. rewrite Nat.sub_0_r in *.
      bstep H k1 E1. bstep H k2 E2. apply Ok_inj in H. subst k'.
      eapply evols_ext; [apply update_mods_cache|].
      apply deactivate_cache in E1. cbn [k_cache set_k_cache] in E1.
      apply activate_ok in E2 as [b ->]. unfold evols. cbn [k_cache set_k_cache]. rewrite E1.
      set (e := nth i (k_cache k) zero_ce) in *.
      set (c1 := upd i (mkCe (ce_code e) (DLayer idx) (ce_dl e) (ce_layer e)) (k_cache k)) in *.
      unfold set_ce_layer. destruct (cache_find c1 (ce_code e) 0) as [j|] eqn:Ej.
      * apply cache_find_at in Ej as [_ [J1 J2]]. rewrite Nat.sub_0_r in *.
        assert (j = i).
        { destruct (Nat.eq_dec j i) as [|Hne]; auto. exfalso.
          assert (Hj : ce_code (nth j (k_cache k) zero_ce) = ce_code e).
          { rewrite <- J2. subst c1. now rewrite nth_upd_other by auto. }
          apply Hne. apply U; auto; [|congruence]. subst c1. now rewrite upd_length in J1. }
        subst j.
        assert (G : upd i (mkCe (ce_code (nth i c1 zero_ce)) (ce_d (nth i c1 zero_ce))
              (ce_dl (nth i c1 zero_ce)) idx) c1
              = upd i (mkCe (ce_code e) (DLayer idx) (ce_dl e) idx) (k_cache k)).
        { subst c1. rewrite upd_upd. rewrite nth_upd_same by auto. reflexivity. }
        rewrite G. apply (Forall2_upd _ _ _ _ zero_ce); [apply evol_refl|]. intros _.
        fold e. split; [reflexivity|]. split; [reflexivity|]. split; [intros _ _ [F|F]; [elim F; exact I|congruence]|].
        intros _ _. right. now exists idx.
      * exfalso. apply (cache_find_none _ _ _ Ej (nth i c1 zero_ce)).
        { apply nth_In. subst c1. now rewrite upd_length. }
        subst c1. now rewrite nth_upd_same.
Qed.

Lemma schedule_cache k t k' : schedule_timeout k t = Ok k' -> k_cache k' = k_cache k.
Proof. intros H. apply schedule_ok in H. subst. reflexivity. Qed.
Lemma desc_at_in k i d : desc_at k i = Ok d -> d = DNone \/ In d (c_descs (k_cfg k)).
Proof.
  unfold desc_at. intros H. bauto H. destruct (Nat.lt_ge_cases i (length (c_descs (k_cfg k)))) as [L|L].
  - right. now apply nth_In.
  - left. now apply nth_overflow.
Qed.
Lemma evols_weak (sw sw' : Prop) code k k' : (sw -> sw') -> sw \/ ~ sw' -> evols sw' code k k' -> evols sw code k k'.
Proof.
  intros H1 H2 H. unfold evols in *. induction H as [|e e' r r' [A [B [C C2]]] _ IH]; constructor; auto.
  split; auto. split; auto. split; auto. intros D1 D2 [D3|D3]; apply C; auto. left. tauto.
Qed.

Lemma cfg_ls ls ns k : k_cfg (lsn ls ns k) = k_cfg k. Proof. reflexivity. Qed.
Lemma activate_cfg k c i k' : activate_layer k c i = Ok k' -> k_cfg k' = k_cfg k.
Proof. intros H. apply activate_ok in H as [b ->]. reflexivity. Qed.
Lemma deactivate_cfg k i k' : deactivate_layer k i = Ok k' -> k_cfg k' = k_cfg k.
Proof. intros H. apply deactivate_ok in H as [_ [b ->]]. reflexivity. Qed.
Lemma update_mods_cfg a k b c : k_cfg (update_mods a k b c) = k_cfg k.
Proof. destruct (update_mods_only a k b c) as [l [s [o ->]]]. reflexivity. Qed.
Lemma execute_macro_cfg k dl m : k_cfg (execute_macro k dl m) = k_cfg k.
Proof. destruct (execute_macro_only k dl m) as [l [s [o ->]]]. reflexivity. Qed.

Lemma pre_macro_cache d p dl k k' : pre_macro d p dl k = Ok k' -> k_cache k' = k_cache k /\ k_cfg k' = k_cfg k.
Proof.
  intros H. destruct p; [|apply Ok_inj in H; now subst].
  apply pre_macro_only in H as [l [s [o ->]]]. auto.
Qed.

Lemma clear_oneshot_cfg k k' : clear_oneshot k = Ok k' -> k_cfg k' = k_cfg k.
Proof. intros H. apply clear_oneshot_ok in H as [ls [ns [-> _]]]. reflexivity. Qed.
Lemma clear_cfg k k' : clear k = Ok k' -> k_cfg k' = k_cfg k.
Proof.
  intros H. apply clear_ok in H as [ls [ns [-> _]]].
  match goal with |- context [reset_keystate ?a] => destruct (reset_keystate_grow a) as [l [s [o [-> _]]]] end.
  reflexivity.
Qed.
Lemma setlayout_cfg k i k' : setlayout k i = Ok k' -> k_cfg k' = k_cfg k.
Proof.
  unfold setlayout. intros H.
  assert (G : forall l k, k_cfg (fold_left drop_layout l k) = k_cfg k).
  { clear. induction l; cbn [fold_left]; intros; auto. rewrite IHl. unfold drop_layout. now destruct (is_layout _). }
  bstep H u Eu. bstep H k1 E1. apply Ok_inj in H. subst k'. cbn [emit set_k_out k_cfg].
  rewrite <- (clear_cfg _ _ E1). destruct (Nat.eqb i 0); cbn [k_cfg set_lsi set_k_ls]; apply G.
Qed.
Lemma schedule_cfg k t k' : schedule_timeout k t = Ok k' -> k_cfg k' = k_cfg k.
Proof. intros H. apply schedule_ok in H. subst. reflexivity. Qed.
Lemma send_key_cfg k c p : k_cfg (send_key k c p) = k_cfg k.
Proof. destruct (send_key_only k c p) as [l [s [o ->]]]. reflexivity. Qed.
Lemma do_swap_cfg k dl i k' : do_swap k dl i = Ok k' -> k_cfg k' = k_cfg k.
Proof.
  intros H. unfold do_swap in H. bstep H u Eu. bstep H u2 Eu2.
  destruct (l_toggled (k_ls k dl)); [|destruct (negb _); [|destruct (swap_slot _ _ _ _)]].
  - bstep H k1 E1. bstep H k3 E3. apply Ok_inj in H. subst k'. rewrite update_mods_cfg. cbn [k_cfg set_lsi set_k_ls].
    rewrite (activate_cfg _ _ _ _ E3). apply (deactivate_cfg _ _ _ E1).
  - bstep H k1 E1. bstep H k3 E3. apply Ok_inj in H. subst k'. rewrite update_mods_cfg. cbn [k_cfg set_lsi set_k_ls].
    rewrite (activate_cfg _ _ _ _ E3). apply (deactivate_cfg _ _ _ E1).
  - bstep H k1 E1. bstep H k3 E3. apply Ok_inj in H. subst k'. rewrite update_mods_cfg.
    rewrite (activate_cfg _ _ _ _ E3). now rewrite (deactivate_cfg _ _ _ E1).
  - apply Ok_inj in H. now subst.
Qed.

Lemma pd_layer_evols sw k code idx pressed k' : pd_layer k code idx pressed = Ok k' ->
  evols sw code k k' /\ k_cfg k' = k_cfg k.
Proof.
  unfold pd_layer. intros H. bstep H k1 E. apply Ok_inj in H. subst k'.
  rewrite update_mods_cfg. destruct pressed.
  - split; [|eapply activate_cfg; eauto]. eapply evols_ext; [apply update_mods_cache|].
    now apply (activate_evols sw code) in E; auto.
  - split; [|eapply deactivate_cfg; eauto]. apply evols_refl. rewrite update_mods_cache.
    eapply deactivate_cache; eauto.
Qed.
Lemma pd_oneshot_evols sw k code idx dl pressed time k' : pd_oneshot k code idx dl pressed time = Ok k' ->
  evols sw code k k' /\ k_cfg k' = k_cfg k.
Proof.
  unfold pd_oneshot. intros H. destruct pressed; [|destruct (k_latch k)].
  - bstep H k1 E. apply Ok_inj in H. subst k'. cbn [k_cfg set_k_latch].
    rewrite update_mods_cfg. split; [|eapply activate_cfg; eauto].
    eapply evols_ext; [apply update_mods_cache|]. now apply (activate_evols sw code) in E; auto.
  - bstep H u Eu. destruct (_ =? 0)%Z.
    + apply Ok_inj in H. subst. split; [now apply evols_refl|reflexivity].
    + split; [apply evols_refl; now rewrite (schedule_cache _ _ _ H)|now rewrite (schedule_cfg _ _ _ H)].
  - bstep H k1 E. apply Ok_inj in H. subst k'. rewrite update_mods_cfg.
    split; [|eapply deactivate_cfg; eauto]. apply evols_refl. rewrite update_mods_cache.
    eapply deactivate_cache; eauto.
Qed.
Lemma pd_toggle_evols sw k code idx pressed k' : pd_toggle k code idx pressed = Ok k' ->
  evols sw code k k' /\ k_cfg k' = k_cfg k.
Proof.
  unfold pd_toggle. intros H. destruct pressed.
  2: { apply Ok_inj in H. subst. split; auto. now apply evols_refl. }
  bstep H u Eu. bstep H k2 E2. rewrite (clear_oneshot_cfg _ _ H), update_mods_cfg.
  split.
  - eapply evols_ext; [apply (clear_oneshot_cache _ _ H)|].
    eapply evols_ext; [apply update_mods_cache|].
    destruct (l_toggled _); [apply evols_refl; now rewrite (deactivate_cache _ _ _ E2)|].
    now apply (activate_evols sw code) in E2; auto.
  - destruct (l_toggled _); [now rewrite (deactivate_cfg _ _ _ E2)|now rewrite (activate_cfg _ _ _ _ E2)].
Qed.
Lemma pd_macro_evols sw code k m t r dl pressed time k' : pd_macro k m t r dl pressed time = Ok k' ->
  evols sw code k k' /\ k_cfg k' = k_cfg k.
Proof.
  unfold pd_macro. intros H. destruct pressed.
  2: { apply Ok_inj in H. subst. split; auto. now apply evols_refl. }
  bstep H mm Em. bstep H k1 E1. split.
  - apply evols_refl. rewrite (schedule_cache _ _ _ H). cbn [k_cache set_k_macro_to set_k_amacro_layer set_k_amacro].
    rewrite execute_macro_cache. now rewrite (clear_oneshot_cache _ _ E1).
  - rewrite (schedule_cfg _ _ _ H). cbn [k_cfg set_k_macro_to set_k_amacro_layer set_k_amacro].
    rewrite execute_macro_cfg. now rewrite (clear_oneshot_cfg _ _ E1).
Qed.
Lemma pd_swap_evols (sw : Prop) code k idx dl mm pressed k' : pd_swap k idx dl mm pressed = Ok k' ->
  uniq (k_cache k) -> sw -> evols sw code k k' /\ k_cfg k' = k_cfg k.
Proof.
  unfold pd_swap. intros H U Hs. destruct pressed.
  - bstep H k1 E1. apply Ok_inj in H. subst k'. split.
    + apply (evols_weak sw True); auto. pose proof (do_swap_evols code _ _ _ _ E1 U) as A.
      destruct mm; auto. eapply evols_ext; [apply execute_macro_cache|exact A].
    + destruct mm; rewrite ?execute_macro_cfg; eapply do_swap_cfg; eauto.
  - apply Ok_inj in H. subst k'. assert (G : k_cache k = k_cache k /\ k_cfg k = k_cfg k) by auto.
    destruct mm as [[|[[] dt] [|]]|]; split; try reflexivity; try now apply evols_refl.
    + apply evols_refl. now rewrite update_mods_cache, send_key_cache.
    + now rewrite update_mods_cfg, send_key_cfg.
Qed.

Lemma pd_evols sw : forall fuel k code d dl pressed time k',
  process_descriptor fuel k code d dl pressed time = Ok k' ->
  uniq (k_cache k) ->
  sw \/ (is_swap d = false /\ forall d', In d' (c_descs (k_cfg k)) -> is_swap d' = false) ->
  evols sw code k k' /\ k_cfg k' = k_cfg k.
Proof.
  induction fuel as [|fuel IH]; intros k code d dl pressed time k' H U Hs; [discriminate|].
  cbn [process_descriptor] in H. bstep H k0 E0. bstep H k1 E1. apply Ok_inj in H. subst k'.
  apply pre_macro_cache in E0 as [C0 G0].
  assert (U0 : uniq (k_cache k0)) by now rewrite C0.
  cut (evols sw code k0 k1 /\ k_cfg k1 = k_cfg k0).
  { intros [A B]. unfold evols in *. rewrite C0 in A. rewrite G0 in B. destruct pressed; split; auto. }
  assert (Hs0 : sw \/ (is_swap d = false /\ forall d', In d' (c_descs (k_cfg k0)) -> is_swap d' = false))
    by now rewrite G0.
  clear Hs C0 G0 U k.
  assert (Hact : forall i a, desc_at k0 i = Ok a ->
     sw \/ (is_swap a = false /\ forall d', In d' (c_descs (k_cfg k0)) -> is_swap d' = false)).
  { intros i a Ha. destruct Hs0 as [Hs0|[_ Hs0]]; auto. right. split; auto.
    apply desc_at_in in Ha as [->|Ha]; auto. }
  destruct d.

  - apply Ok_inj in E1. subst. split; auto. now apply evols_refl.
  - unfold pd_key in E1. bstep E1 k2 E2. apply Ok_inj in E1. subst k1.
    cut (k_cache k2 = k_cache k0 /\ k_cfg k2 = k_cfg k0).
    { intros [A B]. destruct (_ || _); split; auto; now apply evols_refl. }
    destruct pressed.
    + split; [erewrite clear_oneshot_cache by eauto|erewrite clear_oneshot_cfg by eauto];
        rewrite ?send_key_cache, ?send_key_cfg, ?update_mods_cache, ?update_mods_cfg;
        destruct (k_ks k0 code0); auto using send_key_cache, send_key_cfg.
    + apply Ok_inj in E2. subst k2.
      rewrite ?update_mods_cache, ?update_mods_cfg, ?send_key_cache, ?send_key_cfg. auto.
  - eapply pd_oneshot_evols; eauto.
  - eapply pd_oneshot_evols; eauto.
  - eapply pd_layer_evols; eauto.
  - destruct Hs0 as [Hs0|[Hs0 _]]; [|discriminate Hs0]. eapply pd_swap_evols; eauto.
  - destruct Hs0 as [Hs0|[Hs0 _]]; [|discriminate Hs0]. bstep E1 mm Em. eapply pd_swap_evols; eauto.
  - eapply pd_layer_evols; eauto.
  - destruct pressed.
    + split; [apply evols_refl; eapply setlayout_cache; eauto|eapply setlayout_cfg; eauto].
    + apply Ok_inj in E1. subst. split; auto. now apply evols_refl.
  - destruct pressed.
    + split; [apply evols_refl; eapply clear_cache; eauto|eapply clear_cfg; eauto].
    + apply Ok_inj in E1. subst. split; auto. now apply evols_refl.
  - destruct pressed.
    + bstep E1 mm Em. bstep E1 k2 E2. apply Ok_inj in E1. subst k1.
      split; [apply evols_refl; rewrite execute_macro_cache; eapply clear_cache; eauto
             |rewrite execute_macro_cfg; eapply clear_cfg; eauto].
    + apply Ok_inj in E1. subst. split; auto. now apply evols_refl.
  - (* overload *) bstep E1 ac Ea. destruct pressed.
    + bstep E1 k2 E2. apply Ok_inj in E1. subst k1. split.
      * eapply evols_ext; [apply update_mods_cache|]. now apply (activate_evols sw code) in E2; auto.
      * rewrite update_mods_cfg. now rewrite (activate_cfg _ _ _ _ E2).
    + bstep E1 k2 E2. set (k3 := update_mods false k2 None 0) in *.
      assert (C3 : k_cache k3 = k_cache k0) by (subst k3; rewrite update_mods_cache; eapply deactivate_cache; eauto).
      assert (G3 : k_cfg k3 = k_cfg k0) by (subst k3; rewrite update_mods_cfg; eapply deactivate_cfg; eauto).
      destruct (_ && _) in E1.
      * assert (G : forall k1, (k4 <- process_descriptor fuel k3 code ac dl true time ;;
                   process_descriptor fuel k4 code ac dl false time) = Ok k1 ->
                  evols sw code k0 k1 /\ k_cfg k1 = k_cfg k0).
        { clear E1. intros k5 E5. bstep E5 k4 E4.
          apply IH in E4 as [A B]; [|now rewrite C3|rewrite G3; eauto].
          apply IH in E5 as [A2 B2]; [|eapply evols_uniq; [exact A|now rewrite C3]|rewrite B, G3; eauto].
          split; [|congruence]. unfold evols in A. rewrite C3 in A. eapply evols_trans; [exact A|exact A2]. }
        destruct ac; try (apply G; exact E1).
        bstep E1 mm Em. apply Ok_inj in E1. subst k1. split.
        { apply evols_refl. now rewrite execute_macro_cache. }
        { now rewrite execute_macro_cfg. }
      * apply Ok_inj in E1. subst k1. split; auto. now apply evols_refl.
  - destruct pressed; [bstep E1 ac Ea; unfold set_pending in E1; split;
      [apply evols_refl; now rewrite (schedule_cache _ _ _ E1)|now rewrite (schedule_cfg _ _ _ E1)]
    |apply Ok_inj in E1; subst; split; auto; now apply evols_refl].
  - destruct pressed; [bstep E1 ac Ea; unfold set_pending in E1; split;
      [apply evols_refl; now rewrite (schedule_cache _ _ _ E1)|now rewrite (schedule_cfg _ _ _ E1)]
    |apply Ok_inj in E1; subst; split; auto; now apply evols_refl].
  - (* overloadi *) destruct pressed.
    2: { apply Ok_inj in E1. subst. split; auto. now apply evols_refl. }
    bstep E1 ac Ea. bstep E1 k2 E2. apply Ok_inj in E1. subst k1.
    apply IH in E2 as [A B]; eauto. split.
    + eapply evols_trans; [exact A|]. unfold cache_replace_d, evols.
      destruct (cache_find (k_cache k2) code 0) as [i|] eqn:Ei; [|now apply Forall2_refl, evol_refl].
      apply cache_find_at in Ei as [_ [I1 I2]]. rewrite Nat.sub_0_r in *.
      cbn [k_cache set_k_cache]. apply (Forall2_upd _ _ _ _ zero_ce); [apply evol_refl|].
      intros _. split; [reflexivity|]. split; [reflexivity|]. split; intros; congruence.
    + unfold cache_replace_d. destruct (cache_find _ _ _); auto.
  - eapply pd_toggle_evols; eauto.
  - eapply pd_toggle_evols; eauto.
  - eapply pd_macro_evols; eauto.
  - eapply pd_macro_evols; eauto.
  - destruct pressed.
    + bstep E1 cmd Ec. bstep E1 k2 E2. apply Ok_inj in E1. subst k1. split.
      * apply evols_refl. rewrite update_mods_cache. now rewrite (clear_oneshot_cache _ _ E2).
      * rewrite update_mods_cfg. now rewrite (clear_oneshot_cfg _ _ E2).
    + apply Ok_inj in E1. subst. split; auto. now apply evols_refl.
  - destruct pressed; [bstep E1 ac Ea; bstep E1 ac2 Ea2; unfold set_pending in E1; split;
      [apply evols_refl; now rewrite (schedule_cache _ _ _ E1)|now rewrite (schedule_cfg _ _ _ E1)]
    |apply Ok_inj in E1; subst; split; auto; now apply evols_refl].
  - apply Ok_inj in E1. subst. split; [now apply evols_refl|reflexivity].
  - apply Ok_inj in E1. subst. split; [now apply evols_refl|reflexivity].
Qed.
