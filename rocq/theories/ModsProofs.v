(* Proofs of C08, C09: update_mods. *)
From Verif Require Import Base Lib Keys Types MacroExec Kbd Steps SpecMods.
Local Open Scope N_scope.

(* ---- functional description of the key senders ----------------------------- *)
(* k' is k apart from last_out, key table and trace *)
Definition kk (l : N) (s : N -> bool) (o : list oev) (k : kbd) : kbd :=
  set_k_out o (set_k_ks s (set_k_last_out l k)).
Definition keys_only (k k' : kbd) : Prop := exists l s o, k' = kk l s o k.

Lemma keys_only_refl k : keys_only k k.
Proof. exists (k_last_out k), (k_ks k), (k_out k). destruct k; reflexivity. Qed.
Lemma keys_only_trans a b c : keys_only a b -> keys_only b c -> keys_only a c.
Proof. intros [l [s [o ->]]] [l' [s' [o' ->]]]. exists l', s', o'. reflexivity. Qed.

Lemma send_key_only k c p : keys_only k (send_key k c p).
Proof.
  unfold send_key. destruct (_ || _); [apply keys_only_refl|].
  destruct p; cbn [k_ks set_k_last_out];
    match goal with |- keys_only _ (if ?b then _ else _) => destruct b end;
    try apply keys_only_refl.
  - exists c, (k_ks k), (k_out k). destruct k; reflexivity.
  - eexists c, _, _. destruct k; reflexivity.
  - eexists (k_last_out k), _, _. destruct k; reflexivity.
Qed.

Lemma keys_only_fold {B} (f : kbd -> B -> kbd) l k :
  (forall k b, keys_only k (f k b)) -> keys_only k (fold_left f l k).
Proof.
  intros H. revert k; induction l; cbn; intros; [apply keys_only_refl|].
  eapply keys_only_trans; eauto.
Qed.

Lemma clear_mod_only inh k c : keys_only k (clear_mod inh k c).
Proof.
  unfold clear_mod. destruct (_ && _); [|apply send_key_only].
  eapply keys_only_trans; [apply send_key_only|].
  eapply keys_only_trans; [apply send_key_only|]. apply send_key_only.
Qed.
Lemma set_mod1_only inh m k x : keys_only k (set_mod1 inh m k x).
Proof.
  destruct x as [mask c]. unfold set_mod1.
  destruct (hasmod _ _), (k_ks k c);
    auto using keys_only_refl, send_key_only, clear_mod_only.
Qed.
Lemma update_mods_only inh k e m : keys_only k (update_mods inh k e m).
Proof. apply keys_only_fold. intros; apply set_mod1_only. Qed.

Lemma execute_macro_only k dl m : keys_only k (execute_macro k dl m).
Proof.
  unfold execute_macro.
  assert (G : forall os, keys_only k (emits os (update_mods false k (Some dl) 0))).
  { intros os. apply keys_only_trans with (update_mods false k (Some dl) 0);
      [apply update_mods_only|].
    generalize (update_mods false k (Some dl) 0); intros k0.
    exists (k_last_out k0), (k_ks k0), (rev os ++ k_out k0). destruct k0; reflexivity. }
  destruct m as [|[[] d] [|? ?]]; auto.
  eapply keys_only_trans; [apply update_mods_only|].
  eapply keys_only_trans; [apply send_key_only|]. apply send_key_only.
Qed.

(* key table after send_key *)
Lemma send_key_ks k c p x :
  c <> K_NOOP -> c <> K_EXTERNAL_MOUSE ->
  k_ks (send_key k c p) x = if x =? c then p else k_ks k x.
Proof.
  intros H1 H2. unfold send_key.
  destruct (N.eqb_spec c K_NOOP); [congruence|].
  destruct (N.eqb_spec c K_EXTERNAL_MOUSE); [congruence|]. cbn [orb].
  destruct p; cbn [k_ks set_k_last_out];
    match goal with |- context [if eqb ?a ?b then _ else _] => destruct (eqb a b) eqn:E end;
    try (apply eqb_prop in E); cbn [emit set_k_out set_k_ks k_ks set_k_last_out];
    unfold fupd; destruct (N.eqb_spec x c); subst; auto.
Qed.

Lemma send_key_noop k c p : c = K_NOOP \/ c = K_EXTERNAL_MOUSE -> send_key k c p = k.
Proof. unfold send_key. now intros [->| ->]. Qed.

Lemma clear_mod_ks inh k c x :
  c <> K_NOOP -> c <> K_EXTERNAL_MOUSE ->
  k_ks (clear_mod inh k c) x = if x =? c then false else k_ks k x.
Proof.
  intros H1 H2. unfold clear_mod.
  match goal with |- context [if ?b && ?d then _ else _] => destruct b eqn:Eb; destruct d eqn:Ed end;
    cbn [andb]; rewrite ?send_key_ks by (auto; discriminate); auto.
  bsplit.
  destruct (N.eqb_spec x c) as [->|Hx].
  - destruct (N.eqb_spec c K_LEFTCTRL) as [->|]; auto.
  - destruct (N.eqb_spec x K_LEFTCTRL) as [->|]; auto.
Qed.

Lemma modifiers_sound mask c : In (mask, c) modifiers <-> is_modifier mask c.
Proof.
  cbn. split.
  - intros [H|[H|[H|[H|[H|[]]]]]]; injection H as <- <-; constructor.
  - intros []; auto 6.
Qed.
Lemma modifier_normal mask c : is_modifier mask c -> c <> K_NOOP /\ c <> K_EXTERNAL_MOUSE.
Proof. intros []; split; discriminate. Qed.
Lemma hasmod_in_set mask m : hasmod mask m = true <-> in_set mask m.
Proof.
  unfold hasmod, in_set. rewrite negb_true_iff. apply N.eqb_neq.
Qed.

Lemma set_mod1_ks inh m k mask c x :
  c <> K_NOOP -> c <> K_EXTERNAL_MOUSE ->
  k_ks (set_mod1 inh m k (mask, c)) x = if x =? c then hasmod mask m else k_ks k x.
Proof.
  intros H1 H2. unfold set_mod1.
  destruct (hasmod mask m) eqn:E, (k_ks k c) eqn:Ek;
    rewrite ?send_key_ks, ?clear_mod_ks by auto;
    destruct (N.eqb_spec x c); subst; auto.
Qed.

Lemma set_mods_ks inh k m x :
  k_ks (set_mods inh k m) x =
  match find (fun mk => snd mk =? x) modifiers with
  | Some (mask, _) => hasmod mask m
  | None => k_ks k x
  end.
Proof.
  unfold set_mods, modifiers. cbn [fold_left].
  rewrite !set_mod1_ks by discriminate. cbn [find snd].
  rewrite !(N.eqb_sym x).
  repeat match goal with |- context [N.eqb ?a x] =>
    destruct (N.eqb_spec a x) as [<-|]; [reflexivity|] end.
  reflexivity.
Qed.

Lemma find_modifier mask c : is_modifier mask c ->
  find (fun mk => snd mk =? c) modifiers = Some (mask, c).
Proof. intros []; reflexivity. Qed.
Lemma find_not_modifier x : (forall mask, ~ is_modifier mask x) ->
  find (fun mk => snd mk =? x) modifiers = None.
Proof.
  intros H. destruct (find _ modifiers) as [[mask c]|] eqn:E; auto.
  apply find_some in E as [E1 E2]. cbn in E2. apply N.eqb_eq in E2 as ->.
  apply modifiers_sound in E1. now apply H in E1.
Qed.

Lemma set_mods_modifier inh k m mask c : is_modifier mask c ->
  k_ks (set_mods inh k m) c = hasmod mask m.
Proof. intros H. now rewrite set_mods_ks, (find_modifier _ _ H). Qed.
Lemma set_mods_other inh k m x : (forall mask, ~ is_modifier mask x) ->
  k_ks (set_mods inh k m) x = k_ks k x.
Proof. intros H. now rewrite set_mods_ks, find_not_modifier. Qed.

(* the modifier set computed from the layers *)
Lemma hasmod_lor b x y : hasmod b (N.lor x y) = hasmod b x || hasmod b y.
Proof.
  unfold hasmod. rewrite N.land_lor_distr_r.
  destruct (N.eqb_spec (N.land b x) 0), (N.eqb_spec (N.land b y) 0),
    (N.eqb_spec (N.lor (N.land b x) (N.land b y)) 0); auto; exfalso.
  - rewrite e, e0 in n. now apply n.
  - apply N.lor_eq_0_iff in e0. tauto.
  - apply N.lor_eq_0_iff in e0. tauto.
  - apply N.lor_eq_0_iff in e. tauto.
Qed.

Lemma excluded_spec k dl i : excluded k (Some dl) i = true <-> supplies (k_cfg k) dl i.
Proof.
  unfold excluded, supplies, layer_at. rewrite orb_true_iff, andb_true_iff, Nat.eqb_eq, existsb_exists.
  split; (intros [H|[H1 H2]]; [left; exact H|right]).
  - destruct H2 as [j [H2 H3]]. apply Nat.eqb_eq in H3 as ->. split; auto.
    destruct (ly_type _); auto; discriminate.
  - rewrite H1. split; auto. exists i. now rewrite Nat.eqb_refl.
Qed.

Lemma active_mods_gen k e b : forall l m,
  hasmod b (fold_left (fun m i => if is_active k i && negb (excluded k e i)
                                  then N.lor m (ly_mods (layer_at k i)) else m) l m) = true
  <-> hasmod b m = true \/ exists i, In i l /\ is_active k i = true
        /\ excluded k e i = false /\ hasmod b (ly_mods (layer_at k i)) = true.
Proof.
  induction l as [|i l IH]; cbn [fold_left]; intros m.
  - split; auto. intros [H|[i [[] _]]]; auto.
  - rewrite IH. clear IH. destruct (is_active k i) eqn:Ea, (excluded k e i) eqn:Ee; cbn [andb negb].
    2: rewrite hasmod_lor, orb_true_iff.
    all: split; [intros [H|[j [H1 H2]]]; [|right; exists j; cbn; tauto]
                |intros [H|[j [[<-|H1] [H2 [H3 H4]]]]]]; try (now auto);
         try (right; exists j; tauto); try congruence; auto.
    destruct H; auto. right. exists i. cbn; auto.
Qed.

Lemma layer_active_spec k i :
  layer_active k i <-> (In i (seq 0 (nlayers k)) /\ is_active k i = true).
Proof.
  unfold layer_active, is_active, nlayers. rewrite in_seq, negb_true_iff, N.eqb_neq. intuition lia.
Qed.

Lemma active_mods_wanted k dl mods b :
  hasmod b (active_mods k (Some dl) mods) = true <-> wanted k dl mods b.
Proof.
  unfold active_mods. rewrite active_mods_gen. unfold wanted. rewrite hasmod_in_set.
  split; (intros [H|[i H]]; [auto|right; exists i]); revert H; rewrite layer_active_spec.
  - intros [H1 [H2 [H3 H4]]]. rewrite <- excluded_spec, H3, <- hasmod_in_set. repeat split; auto; discriminate.
  - intros [[H1 H2] [H3 H4]]. rewrite <- excluded_spec in H3. apply hasmod_in_set in H4.
    repeat split; auto. now destruct (excluded k (Some dl) i).
Qed.

(* ---- C08 ------------------------------------------------------------------- *)
(* layer bookkeeping does not touch keys *)
Definition layer_note (o : oev) : bool := match o with OLayer _ _ _ => true | _ => false end.

Lemma deactivate_layer_out k i k' : deactivate_layer k i = Ok k' ->
  k_ks k' = k_ks k /\ exists b, k_out k' = OLayer i false b :: k_out k.
Proof. unfold deactivate_layer. intros H. bauto H. split; [reflexivity|eexists; reflexivity]. Qed.

Definition notes_only (k k' : kbd) : Prop :=
  k_ks k' = k_ks k /\ exists ns, k_out k' = ns ++ k_out k /\ forallb layer_note ns = true.
Lemma notes_only_refl k : notes_only k k.
Proof. split; auto. now exists []. Qed.
Lemma notes_only_trans a b c : notes_only a b -> notes_only b c -> notes_only a c.
Proof.
  intros [H1 [n1 [H2 H3]]] [H4 [n2 [H5 H6]]]. split; [congruence|].
  exists (n2 ++ n1). rewrite H5, H2, app_assoc, forallb_app, H3, H6. auto.
Qed.
Lemma deactivate_notes k i k' : deactivate_layer k i = Ok k' -> notes_only k k'.
Proof.
  intros H. apply deactivate_layer_out in H as [H1 [b H2]]. split; auto.
  exists [OLayer i false b]. auto.
Qed.
Lemma drop_oneshots_notes n : forall k i k', drop_oneshots n k i = Ok k' -> notes_only k k'.
Proof.
  induction n; cbn [drop_oneshots]; intros k i k' H; bauto H; [apply notes_only_refl|].
  eapply notes_only_trans; [eapply deactivate_notes; eauto|].
  apply IHn in H. exact H.
Qed.
Lemma clear_oneshot_notes k k' : clear_oneshot k = Ok k' -> notes_only k k'.
Proof.
  unfold clear_oneshot. intros H. bauto H.
  assert (G : forall l k k', clear_oneshot_layers l k = Ok k' -> notes_only k k').
  { induction l; cbn [clear_oneshot_layers]; intros k0 k' H; bauto H; [apply notes_only_refl|].
    eapply notes_only_trans; [eapply drop_oneshots_notes; eauto|eauto]. }
  apply G in E. exact E.
Qed.

Definition agrees (k : kbd) (code : N) : Prop := host_down (k_out k) code = k_ks k code.

Lemma send_key_agrees k c p x : agrees k x -> agrees (send_key k c p) x.
Proof.
  unfold agrees, send_key. destruct (_ || _); auto.
  destruct p; cbn [k_ks k_out set_k_last_out];
    match goal with |- context [if eqb ?a ?b then _ else _] => destruct (eqb a b) end;
    cbn [emit set_k_out set_k_ks k_ks set_k_last_out k_out host_down]; auto;
    unfold fupd; rewrite (N.eqb_sym x c); destruct (N.eqb_spec c x); subst; auto.
Qed.
Lemma fold_agrees {B} (f : kbd -> B -> kbd) x l : (forall k b, agrees k x -> agrees (f k b) x) ->
  forall k, agrees k x -> agrees (fold_left f l k) x.
Proof. intros H. induction l; cbn; auto. Qed.
Lemma clear_mod_agrees inh k c x : agrees k x -> agrees (clear_mod inh k c) x.
Proof. unfold clear_mod. destruct (_ && _); auto using send_key_agrees. Qed.
Lemma update_mods_agrees inh k e m x : agrees k x -> agrees (update_mods inh k e m) x.
Proof.
  apply fold_agrees. intros k0 [mask c] H. unfold set_mod1.
  destruct (hasmod _ _), (k_ks k0 c); auto using send_key_agrees, clear_mod_agrees.
Qed.

Lemma keys_only_wanted k k' dl mods b : keys_only k k' -> wanted k' dl mods b <-> wanted k dl mods b.
Proof. intros [l [s [o ->]]]. reflexivity. Qed.

Lemma prim_suffix k k1 : prim k k1 -> exists o, k_out k1 = o ++ k_out k.
Proof.
  destruct 1; try (now exists []); try (eexists [_]; reflexivity); try (eexists; reflexivity).
  - destruct H as [_ [_ [_ [-> _]]]]. now exists [].
  - unfold send_key. destruct (_ || _); [now exists []|].
    destruct p; cbn [k_ks k_out set_k_last_out];
      match goal with |- context [if eqb ?a ?b then _ else _] => destruct (eqb a b) end;
      try (now exists []); eexists [_]; reflexivity.
  - unfold activate_layer in H. bauto H. eexists [_]; reflexivity.
  - unfold deactivate_layer in H. bauto H. eexists [_]; reflexivity.
  - unfold drop_layout. destruct (is_layout _); now exists [].
Qed.
Lemma steps_suffix k k' : steps k k' -> exists o, k_out k' = o ++ k_out k.
Proof.
  induction 1 as [k|k k1 k2 Hp _ [o IH]]; [now exists []|].
  apply prim_suffix in Hp as [o' G]. exists (o ++ o'). now rewrite IH, G, app_assoc.
Qed.

(* The press of a key sequence splits the new trace at its own key press. *)
Lemma keyseq_press_modifiers k code c mods dl time fuel k' :
  (forall mask, ~ is_modifier mask c) -> c <> K_NOOP -> c <> K_EXTERNAL_MOUSE ->
  agrees k c -> (forall mask mc, is_modifier mask mc -> agrees k mc) ->
  process_descriptor (S fuel) k code (DKey c mods) dl true time = Ok k' ->
  exists notes before,
    k_out k' = notes ++ OKey c true :: before ++ k_out k
    /\ forallb layer_note notes = true
    /\ host_down (before ++ k_out k) c = false
    /\ (forall mask mc, is_modifier mask mc ->
          (host_down (before ++ k_out k) mc = true <-> wanted k dl mods mask)).
Proof.
  intros Hnm Hn1 Hn2 Hac Ham H. cbn [process_descriptor pre_macro bind] in H.
  bstep H k0 E. injection H as <-.
  unfold pd_key in E. bstep E k1 E1. injection E as <-.
  set (a := if k_ks k c then send_key k c false else k) in *.
  assert (Ha : keys_only k a).
  { subst a. destruct (k_ks k c); auto using send_key_only, keys_only_refl. }
  assert (Hka : k_ks a c = false).
  { subst a. destruct (k_ks k c) eqn:E; auto. rewrite send_key_ks, N.eqb_refl by auto. auto. }
  assert (Haa : forall x, agrees k x -> agrees a x).
  { subst a. destruct (k_ks k c); auto using send_key_agrees. }
  set (b := update_mods false a (Some dl) mods) in *.
  assert (Hb : keys_only k b).
  { eapply keys_only_trans; [exact Ha|]. apply update_mods_only. }
  assert (Hkb : k_ks b c = false).
  { subst b. unfold update_mods. rewrite set_mods_other; auto. }
  assert (Hbb : forall x, agrees k x -> agrees b x).
  { intros x Hx. apply update_mods_agrees, Haa, Hx. }
  assert (Hsend : send_key b c true =
                  emit (OKey c true) (set_k_ks (fupd (k_ks b) c true) (set_k_last_out c b))).
  { unfold send_key. destruct (N.eqb_spec c K_NOOP); [congruence|].
    destruct (N.eqb_spec c K_EXTERNAL_MOUSE); [congruence|].
    cbn [orb k_ks set_k_last_out]. rewrite Hkb. reflexivity. }
  apply clear_oneshot_notes in E1 as [_ [ns [Ho Hns]]].
  rewrite Hsend in Ho. cbn [emit set_k_out k_out set_k_ks set_k_last_out] in Ho.
  assert (Hsuf : exists bf, k_out b = bf ++ k_out k).
  { apply steps_suffix. eapply steps_trans; [|apply update_mods_steps].
    subst a. destruct (k_ks k c); auto using st_refl, send_key_steps. }
  destruct Hsuf as [bf Hbf].
  exists ns, bf. repeat split; auto.
  - destruct ((mods =? 0) || (mods =? MOD_SHIFT));
      cbn [k_out set_k_last_code set_k_last_simple]; rewrite Ho, Hbf; reflexivity.
  - rewrite <- Hbf. rewrite (Hbb c Hac). exact Hkb.
  - intros Hd. rewrite <- Hbf, (Hbb _ (Ham _ _ H)) in Hd. subst b. unfold update_mods in Hd.
    rewrite (set_mods_modifier _ _ _ _ _ H) in Hd. apply active_mods_wanted in Hd.
    revert Hd. apply (keys_only_wanted k a dl mods mask Ha).
  - intros Hd. rewrite <- Hbf, (Hbb _ (Ham _ _ H)). subst b. unfold update_mods.
    rewrite (set_mods_modifier _ _ _ _ _ H), active_mods_wanted.
    revert Hd. apply (keys_only_wanted k a dl mods mask Ha).
Qed.

(* ---- C09 ------------------------------------------------------------------- *)
Definition gnext (s : N * bool) (o : oev) : N * bool :=
  match o with
  | OKey c true => (c, if c =? 29 then true else snd s)
  | OKey c false => (fst s, if c =? 29 then false else snd s)
  | _ => s
  end.
Lemma guarded_app a : forall l c b,
  guarded l c (a ++ b) <->
  guarded l c a /\ guarded (fst (fold_left gnext a (l, c))) (snd (fold_left gnext a (l, c))) b.
Proof.
  induction a as [|o a IH]; intros l c b; cbn [app fold_left guarded fst snd]; [tauto|].
  destruct o as [x [|]| | |]; cbn [guarded gnext fst snd]; rewrite IH; tauto.
Qed.

(* the events from k to k' are guarded *)
Definition gseq (k k' : kbd) : Prop :=
  exists evs, k_out k' = rev evs ++ k_out k
    /\ guarded (k_last_out k) (k_ks k 29) evs
    /\ fold_left gnext evs (k_last_out k, k_ks k 29) = (k_last_out k', k_ks k' 29).
Lemma gseq_refl k : gseq k k.
Proof. exists []. cbn. auto. Qed.
Lemma gseq_trans a b c : gseq a b -> gseq b c -> gseq a c.
Proof.
  intros [e1 [H1 [H2 H3]]] [e2 [H4 [H5 H6]]]. exists (e1 ++ e2). repeat split.
  - now rewrite rev_app_distr, <- app_assoc, H4, H1.
  - apply guarded_app. split; auto. now rewrite H3.
  - now rewrite fold_left_app, H3.
Qed.

Lemma send_key_change k c p :
  c <> K_NOOP -> c <> K_EXTERNAL_MOUSE -> k_ks k c = negb p ->
  k_out (send_key k c p) = OKey c p :: k_out k
  /\ k_last_out (send_key k c p) = (if p then c else k_last_out k)
  /\ k_ks (send_key k c p) = fupd (k_ks k) c p.
Proof.
  intros H1 H2 H3. unfold send_key.
  destruct (N.eqb_spec c K_NOOP); [congruence|].
  destruct (N.eqb_spec c K_EXTERNAL_MOUSE); [congruence|]. cbn [orb].
  destruct p; cbn [k_ks set_k_last_out]; rewrite H3; cbn; auto.
Qed.

Lemma gseq_send k c p : c <> K_NOOP -> c <> K_EXTERNAL_MOUSE -> k_ks k c = negb p ->
  (p = false -> (c = 56 \/ c = 100 \/ c = 125) -> k_last_out k <> c \/ k_ks k 29 = true) ->
  gseq k (send_key k c p).
Proof.
  intros H1 H2 H3 H4. destruct (send_key_change k c p H1 H2 H3) as [E1 [E2 E3]].
  exists [OKey c p]. rewrite E1, E2, E3. repeat split.
  - destruct p; cbn [guarded]; auto.
  - cbn [fold_left gnext fst snd]. unfold fupd. rewrite (N.eqb_sym 29).
    destruct p; cbn; destruct (c =? 29); auto.
Qed.

Lemma send_key_cfg k c p : k_cfg (send_key k c p) = k_cfg k.
Proof. destruct (send_key_only k c p) as [l [s [o ->]]]. reflexivity. Qed.

Lemma clear_mod_gseq k mask c : c_no_guard (k_cfg k) = false ->
  is_modifier mask c -> k_ks k c = true -> gseq k (clear_mod false k c).
Proof.
  intros Hg Hm Hk. unfold clear_mod. rewrite Hg. cbn [negb]. rewrite !andb_true_r.
  destruct (modifier_normal _ _ Hm) as [N1 N2].
  destruct ((k_last_out k =? c) && ((c =? K_LEFTMETA) || (c =? K_LEFTALT) || (c =? K_RIGHTALT))) eqn:E;
    [destruct (k_ks k K_LEFTCTRL) eqn:Ec|]; cbn [andb negb].
  - apply gseq_send; auto.
  - assert (Hc : c <> 29).
    { intros ->. apply andb_true_iff in E as [_ E]. discriminate. }
    assert (A : k_ks (send_key k K_LEFTCTRL true) K_LEFTCTRL = true)
      by (rewrite send_key_ks by discriminate; reflexivity).
    assert (B : k_ks (send_key k K_LEFTCTRL true) c = true).
    { rewrite send_key_ks by discriminate. destruct (N.eqb_spec c K_LEFTCTRL); auto. }
    eapply gseq_trans; [apply (gseq_send k K_LEFTCTRL true); try discriminate; auto|].
    eapply gseq_trans; [apply (gseq_send _ c false); auto|].
    apply gseq_send; try discriminate; auto.
    + rewrite send_key_ks by auto. change K_LEFTCTRL with 29 in *.
      destruct (N.eqb_spec 29 c); [congruence|]. exact A.
    + intros _ [H|[H|H]]; discriminate H.
  - apply gseq_send; auto. intros _ Hx. left. intros Hl.
    rewrite Hl, N.eqb_refl in E. cbn [andb] in E. destruct Hx as [->|[->| ->]]; discriminate E.
Qed.

Lemma update_mods_gseq k e m : c_no_guard (k_cfg k) = false -> gseq k (update_mods false k e m).
Proof.
  intros Hg. unfold update_mods, set_mods. generalize (active_mods k e m) as mods. intros mods.
  assert (G : forall l k, (forall x, In x l -> is_modifier (fst x) (snd x)) ->
    c_no_guard (k_cfg k) = false -> gseq k (fold_left (set_mod1 false mods) l k)).
  { induction l as [|[mask c] l IH]; intros k0 Hl Hk; [apply gseq_refl|].
    cbn [fold_left]. eapply gseq_trans; [|apply IH].
    - unfold set_mod1. specialize (Hl (mask, c) (or_introl eq_refl)). cbn in Hl.
      destruct (modifier_normal _ _ Hl).
      destruct (hasmod mask mods), (k_ks k0 c) eqn:E; try apply gseq_refl.
      + apply gseq_send; auto. discriminate.
      + eapply clear_mod_gseq; eauto.
    - intros; apply Hl; now right.
    - destruct (set_mod1_only false mods k0 (mask, c)) as [l0 [s0 [o0 ->]]]. exact Hk. }
  apply G; auto. intros [mask c] Hx. now apply modifiers_sound.
Qed.

(* ---- reachable states -------------------------------------------------------- *)
From Verif Require Import Config Hist SpecTrace TraceProofs.

Lemma host_down_other c : forall o out, key_history c o = [] -> host_down (o ++ out) c = host_down out c.
Proof.
  induction o as [|a o IH]; intros out H; auto.
  rewrite key_history_cons in H. apply app_eq_nil in H as [H1 H2].
  destruct a as [x p| | |]; cbn [app host_down]; auto.
  destruct (x =? c); [discriminate|auto].
Qed.

Lemma reach_agrees (G : config -> Prop) c k code :
  (forall c, G c -> macros_avoid code c) -> reach G c k -> agrees k code.
Proof.
  intros HG. revert k. apply (reach_ind_steps G c (fun k => agrees k code)).
  - intros clk _. reflexivity.
  - intros k k' Hk Hp Ha. unfold agrees in *.
    destruct Hp; auto.
    + destruct H as [_ [_ [Hks [Ho _]]]]. now rewrite Hks, Ho.
    + now apply send_key_agrees.
    + cbn [emit set_k_out set_k_ks k_out k_ks host_down]. unfold fupd. rewrite (N.eqb_sym code).
      destruct (c0 =? code); auto.
    + cbn [emits set_k_out k_out k_ks].
      rewrite host_down_other; auto. eapply macro_history; eauto.
    + unfold activate_layer in H. bauto H. exact Ha.
    + unfold deactivate_layer in H. bauto H. exact Ha.
    + unfold drop_layout. destruct (is_layout _); auto.
  - auto.
  - intros k k' Ho Ha. destruct Ho; exact Ha.
Qed.

Lemma reach_times (G : config -> Prop) c k : reach G c k ->
  (1 <= k_clock k)%Z /\ forall i, (0 <= l_time (k_ls k i))%Z.
Proof.
  revert k. apply (reach_ind_steps G c (fun k => (1 <= k_clock k)%Z /\ forall i, (0 <= l_time (k_ls k i))%Z)).
  - intros clk Hc. split; auto. intros i. unfold new_keyboard. cbn [k_ls].
    assert (forall j, 0 <= l_time (nupd (fun _ => zero_lst) 0%nat (mkLst 0 1 false 0) j))%Z.
    { intros j. unfold nupd. destruct (Nat.eqb j 0); cbn; lia. }
    destruct (c_default_layout c); auto. destruct (find_layout _ _ _); auto.
    unfold nupd at 1. destruct (Nat.eqb _ _); cbn; try lia; auto.
  - intros k k' Hk Hp [H1 H2].
    destruct Hp; auto.
    + destruct H as [_ [_ [_ [_ [Hc [_ Ht]]]]]]. rewrite Hc. split; auto. intros i. now rewrite Ht.
    + destruct (send_key_only k c0 p) as [l [s [o ->]]]. auto.
    + unfold activate_layer in H. bauto H. cbn [k_clock emit set_k_out set_k_cache set_k_clock].
      split; [lia|]. intros j. cbn [k_ls emit set_k_out set_k_cache set_k_clock set_lsi set_k_ls].
      unfold nupd. destruct (Nat.eqb _ _); auto. cbn. lia.
    + unfold deactivate_layer in H. bauto H. split; auto. intros j.
      cbn [k_ls emit set_k_out set_lsi set_k_ls]. unfold nupd. destruct (Nat.eqb _ _); auto. cbn. auto.
    + unfold drop_layout. destruct (is_layout _); auto. split; auto. intros j.
      cbn [k_ls emit set_k_out set_lsi set_k_ls]. unfold nupd. destruct (Nat.eqb _ _); auto. cbn. auto.
    + split; auto. intros j.
      cbn [k_ls emit set_k_out set_lsi set_k_ls]. unfold nupd. destruct (Nat.eqb _ _); auto. cbn. lia.
  - auto.
  - intros k k' Ho [H1 H2]. destruct Ho; [|auto]. split; [cbn [k_clock set_k_clock]; lia|exact H2].
Qed.
