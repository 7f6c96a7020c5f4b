(* Proofs about typing on plain keys (C49, C44). *)
From Verif Require Import Base Lib Keys Types MacroExec Kbd Steps SpecMods SpecLookup SpecPlain ModsProofs
  LookupProofs Engine StepProofs OneProofs ActProofs CacheProofs ClassInv KeptProofs TermProofs.

Lemma send_key_seg k c p : exists seg, k_out (send_key k c p) = seg ++ k_out k
  /\ forall e, In e seg -> e = OKey c p.
Proof.
  unfold send_key. destruct (_ || _); [exists []; split; [reflexivity|intros e []]|].
  destruct p; cbn [k_ks set_k_last_out];
    match goal with |- context [if eqb ?a ?b then _ else _] => destruct (eqb a b) end;
    first [exists []; split; [reflexivity|intros e []]
          |eexists [_]; split; [reflexivity|intros e [<-|[]]; reflexivity]].
Qed.
Definition modseg (k k' : kbd) : Prop := exists seg, k_out k' = seg ++ k_out k /\ Forall modifier_event seg.
Lemma modseg_refl k : modseg k k.
Proof. exists []. auto. Qed.
Lemma modseg_trans a b c : modseg a b -> modseg b c -> modseg a c.
Proof.
  intros [s1 [E1 F1]] [s2 [E2 F2]]. exists (s2 ++ s1). rewrite E2, E1, app_assoc. split; auto.
  apply Forall_app. auto.
Qed.
Lemma modseg_send k bit c p : is_modifier bit c -> modseg k (send_key k c p).
Proof.
  intros H. destruct (send_key_seg k c p) as [seg [E F]]. exists seg. split; auto.
  apply Forall_forall. intros e He. rewrite (F e He). exists bit, c, p. auto.
Qed.
Lemma modseg_clear inh k bit c : is_modifier bit c -> modseg k (clear_mod inh k c).
Proof.
  intros H. unfold clear_mod. destruct (_ && _); [|eapply modseg_send; eauto].
  eapply modseg_trans; [eapply (modseg_send _ 8 K_LEFTCTRL); constructor|].
  eapply modseg_trans; [eapply modseg_send; eauto|]. eapply (modseg_send _ 8 K_LEFTCTRL); constructor.
Qed.
Lemma modseg_update inh k e m : modseg k (update_mods inh k e m).
Proof.
  unfold update_mods, set_mods. generalize (active_mods k e m). intros mm.
  assert (G : forall l k, (forall x, In x l -> In x modifiers) -> modseg k (fold_left (set_mod1 inh mm) l k)).
  { induction l as [|[mask c] l IH]; intros k0 Hl; cbn [fold_left]; [apply modseg_refl|].
    eapply modseg_trans; [|apply IH; intros x Hx; apply Hl; now right].
    assert (Hm : is_modifier mask c) by (apply modifiers_sound, Hl; now left).
    unfold set_mod1. destruct (hasmod _ _), (k_ks k0 c); eauto using modseg_refl, modseg_send, modseg_clear. }
  apply G. auto.
Qed.

Lemma clear_oneshot_none k : (forall i, i < nlayers k -> l_depth (k_ls k i) = 0%N) ->
  clear_oneshot k = Ok (set_k_oneshot_to 0%Z (set_k_latch false k)).
Proof.
  intros H. unfold clear_oneshot.
  assert (G : forall l, Forall (fun i => i < nlayers k) l -> clear_oneshot_layers l k = Ok k).
  { induction l as [|i l IH]; intros F; cbn [clear_oneshot_layers]; auto. inversion F; subst.
    rewrite H by auto. cbn [N.to_nat drop_oneshots bind]. auto. }
  rewrite G; auto. apply Forall_forall. intros i Hi. apply in_seq in Hi. lia.
Qed.

Lemma active_mods_standing k b : hasmod b (active_mods k None 0) = true <-> standing k b.
Proof.
  unfold active_mods. rewrite active_mods_gen. unfold standing. split.
  - intros [H|[i [H1 [H2 [_ H3]]]]]; [unfold hasmod in H; now rewrite N.land_0_r in H|].
    exists i. rewrite layer_active_spec, <- hasmod_in_set. auto.
  - intros [i [H1 H2]]. right. apply layer_active_spec in H1 as [H1 H3]. apply hasmod_in_set in H2. exists i. auto.
Qed.

(* ---- counting free slots --------------------------------------------------------------- *)
Definition zc (c : list centry) : nat := length (filter (fun e => (ce_code e =? 0)%N) c).
Lemma zc_upd : forall c i e, i < length c ->
  zc (upd i e c) + (if (ce_code (nth i c zero_ce) =? 0)%N then 1 else 0)
  = zc c + (if (ce_code e =? 0)%N then 1 else 0).
Proof.
  unfold zc. induction c as [|x c IH]; intros [|i] e H; cbn [length] in H; try lia; cbn [upd nth filter].
  - destruct (ce_code e =? 0)%N, (ce_code x =? 0)%N; cbn [length]; lia.
  - specialize (IH i e ltac:(lia)). destruct (ce_code x =? 0)%N; cbn [length]; lia.
Qed.
Lemma zc_room c : 0 < zc c -> exists e, In e c /\ ce_code e = 0%N.
Proof.
  unfold zc. destruct (filter _ c) as [|e l] eqn:E; cbn [length]; [lia|]. intros _.
  assert (H : In e (filter (fun e => (ce_code e =? 0)%N) c)) by (rewrite E; now left).
  apply filter_In in H as [H1 H2]. exists e. split; auto. lia.
Qed.
Lemma zc_full c : zc c = 0 -> forall e, In e c -> ce_code e <> 0%N.
Proof.
  unfold zc. intros H e He Hc.
  assert (X : In e (filter (fun e => (ce_code e =? 0)%N) c)) by (apply filter_In; split; auto; lia).
  destruct (filter _ c); [destruct X|discriminate].
Qed.

Lemma app_same {A} (l r : list A) : r = l ++ r -> l = [].
Proof.
  intros H. apply (f_equal (@length A)) in H. rewrite app_length in H. destruct l; auto. cbn [length] in H. lia.
Qed.
Lemma update_mods_same inh k e m :
  (forall bit mc, is_modifier bit mc -> k_ks k mc = hasmod bit (active_mods k e m)) -> update_mods inh k e m = k.
Proof.
  unfold update_mods, set_mods. generalize (active_mods k e m). intros mm H.
  assert (G : forall l, (forall x, In x l -> In x modifiers) -> fold_left (set_mod1 inh mm) l k = k).
  { induction l as [|[mask c] l IH]; intros Hl; cbn [fold_left]; auto.
    assert (Hm : is_modifier mask c) by (apply modifiers_sound, Hl; now left).
    unfold set_mod1 at 2. rewrite <- (H _ _ Hm). destruct (k_ks k c) eqn:Ek; apply IH; intros x Hx; apply Hl; now right. }
  apply G. auto.
Qed.

(* what a plain key leaves alone *)
Definition quiet (k k' : kbd) : Prop :=
  k_cfg k' = k_cfg k /\ k_ls k' = k_ls k /\ k_achords k' = k_achords k /\ k_pend k' = k_pend k
  /\ k_chord k' = k_chord k /\ k_amacro k' = k_amacro k /\ k_cache k' = k_cache k
  /\ k_timeouts k' = k_timeouts k /\ (k_oneshot_to k = 0%Z -> k_oneshot_to k' = 0%Z)
  /\ forall x, agrees k x -> agrees k' x.
Lemma quiet_refl k : quiet k k.
Proof. repeat split; auto. Qed.
Lemma quiet_trans a b c : quiet a b -> quiet b c -> quiet a c.
Proof.
  intros (A1 & A2 & A3 & A4 & A5 & A6 & A7 & A8 & A9 & A10) (B1 & B2 & B3 & B4 & B5 & B6 & B7 & B8 & B9 & B10).
  repeat split; try congruence; auto.
Qed.
Lemma quiet_keys k k' : keys_only k k' -> (forall x, agrees k x -> agrees k' x) -> quiet k k'.
Proof. intros [l [s [o ->]]] H. repeat split; auto. Qed.
Lemma quiet_send k c p : quiet k (send_key k c p).
Proof. apply quiet_keys; [apply send_key_only|]. intros x. apply send_key_agrees. Qed.
Lemma quiet_update inh k e m : quiet k (update_mods inh k e m).
Proof. apply quiet_keys; [apply update_mods_only|]. intros x. apply update_mods_agrees. Qed.

Lemma host_app_mod : forall seg out x, Forall modifier_event seg -> (forall bit, ~ is_modifier bit x) ->
  host_down (seg ++ out) x = host_down out x.
Proof.
  induction seg as [|e seg IH]; intros out x F Hx; auto. inversion F as [|? ? [bit [c [p [-> Hm]]]] F']; subst.
  cbn [app host_down]. destruct (N.eqb_spec c x) as [->|_]; [now apply Hx in Hm|]. auto.
Qed.
Lemma send_lift k o : o <> K_NOOP -> o <> K_EXTERNAL_MOUSE -> agrees k o ->
  k_out (send_key k o false) = lifted (k_out k) o ++ k_out k.
Proof.
  intros H1 H2 H3. unfold send_key, lifted. destruct (N.eqb_spec o K_NOOP); [congruence|].
  destruct (N.eqb_spec o K_EXTERNAL_MOUSE); [congruence|]. cbn [orb]. unfold agrees in H3. rewrite H3.
  destruct (k_ks k o); reflexivity.
Qed.
Lemma send_down k o : o <> K_NOOP -> o <> K_EXTERNAL_MOUSE -> k_ks k o = false ->
  k_out (send_key k o true) = OKey o true :: k_out k.
Proof.
  intros H1 H2 H3. unfold send_key. destruct (N.eqb_spec o K_NOOP); [congruence|].
  destruct (N.eqb_spec o K_EXTERNAL_MOUSE); [congruence|]. cbn [orb k_ks set_k_last_out]. rewrite H3. reflexivity.
Qed.

Definition printable (o : N) : Prop :=
  o <> K_NOOP /\ o <> K_EXTERNAL_MOUSE /\ forall bit, ~ is_modifier bit o.
Definition in_step (k : kbd) (o : N) : Prop :=
  agrees k o /\ forall bit mc, is_modifier bit mc -> agrees k mc.

Lemma key_press k code o m dl time : (forall i, i < nlayers k -> l_depth (k_ls k i) = 0%N) -> printable o -> in_step k o ->
  exists mods k', do_desc k code (DKey o m) dl true time = Ok k' /\ quiet k k'
    /\ k_out k' = OKey o true :: mods ++ lifted (k_out k) o ++ k_out k
    /\ Forall modifier_event mods
    /\ (forall bit mc, is_modifier bit mc ->
         (host_down (mods ++ lifted (k_out k) o ++ k_out k) mc = true <-> wanted k dl m bit))
    /\ ((forall bit mc, is_modifier bit mc ->
         (host_down (lifted (k_out k) o ++ k_out k) mc = true <-> wanted k dl m bit)) -> mods = []).
Proof.
  intros Hd [O1 [O2 O3]] [S1 S2].
  set (a := if k_ks k o then send_key k o false else k).
  assert (Ea : k_out a = lifted (k_out k) o ++ k_out k).
  { unfold a, lifted. unfold agrees in S1. rewrite S1. destruct (k_ks k o) eqn:Ek; auto.
    rewrite send_lift by (auto; unfold agrees; congruence). unfold lifted. rewrite S1. reflexivity. }
  assert (Qa : quiet k a) by (unfold a; destruct (k_ks k o); auto using quiet_refl, quiet_send).
  assert (Ka : k_ks a o = false).
  { unfold a. destruct (k_ks k o) eqn:Ek; auto. rewrite send_key_ks by auto. now rewrite N.eqb_refl. }
  set (b := update_mods false a (Some dl) m).
  assert (Qb : quiet k b) by (eapply quiet_trans; [exact Qa|apply quiet_update]).
  destruct (modseg_update false a (Some dl) m) as [mods [Eb Fb]]. fold b in Eb.
  assert (Kb : k_ks b o = false) by (unfold b, update_mods; rewrite set_mods_other by auto; exact Ka).
  set (c := send_key b o true).
  assert (Qc : quiet k c) by (eapply quiet_trans; [exact Qb|apply quiet_send]).
  assert (Dc : forall i, i < nlayers c -> l_depth (k_ls c i) = 0%N)
    by (unfold nlayers; intros i; destruct Qc as (-> & -> & _); apply Hd).
  set (c1 := set_k_oneshot_to 0%Z (set_k_latch false c)).
  exists mods, (set_k_last_code code
    (if (m =? 0)%N || (m =? MOD_SHIFT)%N then set_k_last_simple time c1 else c1)).
  split.
  { unfold do_desc, pd_fuel. cbn [process_descriptor pre_macro bind]. unfold pd_key. fold a. fold b. fold c.
    cbv zeta. fold a. fold b. fold c. rewrite clear_oneshot_none by exact Dc. reflexivity. }
  split.
  { eapply quiet_trans; [exact Qc|]. destruct (_ || _); repeat split; auto; intros x Hx; exact Hx. }
  split; [|split; [exact Fb|split]].
  - transitivity (k_out c); [destruct (_ || _); reflexivity|].
    unfold c. rewrite send_down by auto. now rewrite Eb, Ea.
  - intros bit mc Hm. rewrite <- Ea, <- Eb.
    assert (Ab : agrees b mc) by (apply Qb, (S2 bit), Hm). unfold agrees in Ab. rewrite Ab.
    unfold b, update_mods. rewrite (set_mods_modifier _ _ _ _ _ Hm), active_mods_wanted.
    unfold wanted, layer_active, layer_mods. destruct Qa as (-> & -> & _). reflexivity.
  - intros Hok. assert (X : b = a); [|rewrite X in Eb; now apply app_same in Eb].
    apply update_mods_same. intros bit mc Hm. specialize (Hok bit mc Hm). rewrite <- Ea in Hok.
    assert (Aa : agrees a mc) by (apply Qa, (S2 bit), Hm). unfold agrees in Aa. rewrite Aa in Hok.
    apply eq_true_iff_eq. rewrite active_mods_wanted, Hok.
    unfold wanted, layer_active, layer_mods. destruct Qa as (-> & -> & _). reflexivity.
Qed.
Lemma key_release k code o m dl time : printable o -> in_step k o ->
  exists mods k', do_desc k code (DKey o m) dl false time = Ok k' /\ quiet k k'
    /\ k_out k' = mods ++ lifted (k_out k) o ++ k_out k
    /\ Forall modifier_event mods
    /\ (forall bit mc, is_modifier bit mc ->
         (host_down (mods ++ lifted (k_out k) o ++ k_out k) mc = true <-> standing k bit))
    /\ ((forall bit mc, is_modifier bit mc ->
         (host_down (lifted (k_out k) o ++ k_out k) mc = true <-> standing k bit)) -> mods = []).
Proof.
  intros [O1 [O2 O3]] [S1 S2].
  set (a := send_key k o false).
  assert (Ea : k_out a = lifted (k_out k) o ++ k_out k) by (apply send_lift; auto).
  assert (Qa : quiet k a) by apply quiet_send.
  set (b := update_mods false a None 0).
  assert (Qb : quiet k b) by (eapply quiet_trans; [exact Qa|apply quiet_update]).
  destruct (modseg_update false a None 0) as [mods [Eb Fb]]. fold b in Eb.
  exists mods, (if (m =? 0)%N || (m =? MOD_SHIFT)%N then set_k_last_simple time b else b).
  split.
  { unfold do_desc, pd_fuel. cbn [process_descriptor pre_macro bind]. reflexivity. }
  split.
  { eapply quiet_trans; [exact Qb|]. destruct (_ || _); repeat split; auto; intros x Hx; exact Hx. }
  split; [|split; [exact Fb|split]].
  - transitivity (k_out b); [destruct (_ || _); reflexivity|]. now rewrite Eb, Ea.
  - intros bit mc Hm. rewrite <- Ea, <- Eb.
    assert (Ab : agrees b mc) by (apply Qb, (S2 bit), Hm). unfold agrees in Ab. rewrite Ab.
    unfold b, update_mods. rewrite (set_mods_modifier _ _ _ _ _ Hm), active_mods_standing.
    unfold standing, layer_active, layer_mods. destruct Qa as (-> & -> & _). reflexivity.
  - intros Hok. assert (X : b = a); [|rewrite X in Eb; now apply app_same in Eb].
    apply update_mods_same. intros bit mc Hm. specialize (Hok bit mc Hm). rewrite <- Ea in Hok.
    assert (Aa : agrees a mc) by (apply Qa, (S2 bit), Hm). unfold agrees in Aa. rewrite Aa in Hok.
    apply eq_true_iff_eq. rewrite active_mods_standing, Hok.
    unfold standing, layer_active, layer_mods. destruct Qa as (-> & -> & _). reflexivity.
Qed.

Lemma remove_one : forall l (x : N), NoDup l -> In x l -> S (length (remove N.eq_dec x l)) = length l.
Proof.
  induction l as [|y l IH]; intros x N Hin; [destruct Hin|]. inversion N as [|? ? Hy N']; subst. cbn [remove].
  destruct (N.eq_dec x y) as [->|E].
  - rewrite notin_remove by exact Hy. reflexivity.
  - destruct Hin as [->|Hin]; [congruence|]. cbn [length]. rewrite IH; auto.
Qed.
Lemma nodup_remove : forall l (x : N), NoDup l -> NoDup (remove N.eq_dec x l).
Proof.
  induction l as [|y l IH]; intros x N; cbn [remove]; [constructor|]. inversion N as [|? ? Hy N']; subst.
  destruct (N.eq_dec x y); auto. constructor; auto. intros Hin. apply in_remove in Hin as [Hin _]. contradiction.
Qed.

(* ---- one event ---------------------------------------------------------------------------- *)
Section Plain.
Variable k0 : kbd.                  (* where the typing starts *)
Variable struck : N -> Prop.        (* the keys used *)
Variable n : nat.
Hypothesis H_times : forall i, (0 <= l_time (k_ls k0 i))%Z.
Hypothesis H_depth : forall i, i < nlayers k0 -> l_depth (k_ls k0 i) = 0%N.
Hypothesis H_physical : forall x, struck x -> physical x.
Hypothesis H_unchorded : forall x, struck x -> unchorded k0 x.
Definition outkey (o : N) : Prop := exists x m dl, struck x /\ resolves k0 x (DKey o m) dl.
Hypothesis H_plain : forall x, struck x -> exists o m dl, resolves k0 x (DKey o m) dl.
Hypothesis H_out : forall o, outkey o -> printable o.

Record J (held : list N) (k : kbd) : Prop := mkJ {
  j_cfg : k_cfg k = k_cfg k0;
  j_ls : k_ls k = k_ls k0;
  j_ac : k_achords k = k_achords k0;
  j_idle : idle k;
  j_one : k_oneshot_to k = 0%Z;
  j_mac : k_amacro k = None;
  j_agr : forall x, outkey x \/ (exists bit, is_modifier bit x) -> agrees k x;
  j_uniq : uniq (k_cache k);
  j_held : forall x, In x held <-> (struck x /\ exists e, In e (k_cache k) /\ ce_code e = x);
  j_binds : forall e, In e (k_cache k) -> struck (ce_code e) ->
              exists o m, ce_d e = DKey o m /\ resolves k0 (ce_code e) (DKey o m) (ce_dl e);
  j_free : spare k + length held = n;
  j_nodup : NoDup held }.

Lemma j_resolves held k x d dl : J held k -> resolves k x d dl <-> resolves k0 x d dl.
Proof.
  intros [E1 E2 _ _ _ _ _ _ _ _ _ _].
  assert (G : forall ka kb, k_cfg ka = k_cfg kb -> k_ls ka = k_ls kb -> resolves ka x d dl -> resolves kb x d dl).
  { intros ka kb A B H.
    assert (X1 : forall i, applies kb i <-> applies ka i) by (intros i; unfold applies, is_comp, size, layer_of; rewrite A, B; tauto).
    assert (X2 : forall i d, binds kb i x d <-> binds ka i x d) by (intros i d'; unfold binds, layer_of; rewrite A; tauto).
    assert (X3 : forall i, layer_active kb i <-> layer_active ka i) by (intros i; unfold layer_active; rewrite A, B; tauto).
    destruct H as [d i H1 H2 H3|d i H0 H1 H2 H3|H1 H2].
    - apply by_composite; [now apply X1|now apply X2|]. intros j d' Hj Hb. apply X1 in Hj. apply X2 in Hb.
      specialize (H3 _ _ Hj Hb). unfold size, layer_of in *. now rewrite <- A.
    - apply by_layer; [|now apply X3|now apply X2|].
      + intros j d' Hj Hb. apply X1 in Hj. apply X2 in Hb. exact (H0 _ _ Hj Hb).
      + intros j d' Hj Hb. apply X3 in Hj. apply X2 in Hb. specialize (H3 _ _ Hj Hb). unfold act_time in *. now rewrite <- B.
    - apply by_itself.
      + intros j d' Hj Hb. apply X1 in Hj. apply X2 in Hb. exact (H1 _ _ Hj Hb).
      + intros j d' Hj Hb. apply X3 in Hj. apply X2 in Hb. exact (H2 _ _ Hj Hb). }
  split; apply G; congruence.
Qed.
Lemma j_unchorded held k x : J held k -> struck x -> unchorded k x.
Proof.
  intros HJ Hx. destruct (H_unchorded x Hx) as [A B]. destruct HJ as [E1 E2 E3 _ _ _ _ _ _ _ _ _]. split.
  - intros i ch Hi. unfold layer_active, layer_of in *. rewrite E1, E2 in *. now apply A.
  - now rewrite E3.
Qed.
Lemma j_due held k t : J held k -> nothing_due k t.
Proof. intros HJ. split; [left|]; apply HJ. Qed.


Lemma j_step held k o : J held k -> outkey o -> in_step k o.
Proof. intros HJ Ho. split; [|intros bit mc Hm]; apply HJ; eauto. Qed.

(* the invariant does not look at the chord queue, the cache's order, timers ... *)
Lemma j_frame held held' k k' ca q :
  J held k -> quiet (set_k_cache ca (set_k_chord q k)) k' -> h_state q = CsInactive ->
  uniq ca ->
  (forall x, In x held' <-> (struck x /\ exists e, In e ca /\ ce_code e = x)) ->
  (forall e, In e ca -> struck (ce_code e) ->
     exists o m, ce_d e = DKey o m /\ resolves k0 (ce_code e) (DKey o m) (ce_dl e)) ->
  zc ca + length held' = n -> NoDup held' -> J held' k'.
Proof.
  intros [A1 A2 A3 A4 A5 A6 A7 _ _ _ _ _] (B1 & B2 & B3 & B4 & B5 & B6 & B7 & B8 & B9 & B10) Hq U1 U2 U3 U4 U5.
  constructor; cbn [k_cfg k_ls k_achords k_pend k_chord k_amacro k_cache k_timeouts k_oneshot_to set_k_cache set_k_chord] in *;
    try congruence; auto.
  - split; [rewrite B4; apply A4|now rewrite B5].
  - intros x Hx. apply B10. apply A7 in Hx. exact Hx.
  - now rewrite B7.
  - now rewrite B7.
  - now rewrite B7.
  - unfold spare. rewrite B7. exact U4.
Qed.
Lemma j_timeouts held k ts : J held k -> J held (set_k_timeouts ts k).
Proof. intros [A1 A2 A3 A4 A5 A6 A7 A8 A9 A10 A11 A12]. constructor; auto. Qed.

Lemma j_unheld held k code : J held k -> struck code -> ~ In code held -> unheld k code.
Proof. intros HJ Hs Hn e He E. apply Hn. apply HJ. eauto. Qed.

Lemma plain_press fuel held k code time o m dl : J held k -> struck code -> ~ In code held -> length held < n ->
  resolves k0 code (DKey o m) dl ->
  exists mods k' t, process_event (S fuel) k code true time = Ok (k', t) /\ J (code :: held) k'
    /\ k_out k' = OKey o true :: mods ++ lifted (k_out k) o ++ k_out k
    /\ Forall modifier_event mods
    /\ (forall bit mc, is_modifier bit mc ->
         (host_down (mods ++ lifted (k_out k) o ++ k_out k) mc = true <-> wanted k0 dl m bit))
    /\ ((forall bit mc, is_modifier bit mc ->
         (host_down (lifted (k_out k) o ++ k_out k) mc = true <-> wanted k0 dl m bit)) -> mods = []).
Proof.
  intros HJ Hs Hn Hl Hres.
  assert (Hz : code <> 0%N) by apply (H_physical code Hs).
  assert (Hro : exists e, In e (k_cache k) /\ ce_code e = 0%N).
  { apply zc_room. pose proof (j_free _ _ HJ) as X. unfold spare in X. unfold zc. lia. }
  assert (Hun : unheld k code) by (eapply j_unheld; eauto).
  rewrite process_event_idle by (try apply HJ; eauto using j_unchorded, j_due).
  unfold handle_key. destruct (N.eqb_spec code 0); [congruence|].
  rewrite (cache_get_unheld (chord_seen k code true time) _ Hun).
  destruct (lookup_descriptor (chord_seen k code true time) code) as [d' dl'] eqn:El.
  change (lookup_descriptor (chord_seen k code true time) code) with (lookup_descriptor k code) in El.
  apply lookup_resolves in El.
  3: { destruct (H_physical code Hs) as [_ X]. unfold is_chord_code. lia. }
  2: { intros i. rewrite (j_ls _ _ HJ). apply H_times. }
  apply (j_resolves _ _ _ _ _ HJ) in El. destruct (resolves_unique _ _ _ _ _ _ Hres El) as [<- <-]. clear El.
  destruct (cache_set_free (chord_seen k code true time) code (mkCe 0 (DKey o m) dl 0) Hun Hro) as [j [Hj1 [Hj2 Hc]]].
  rewrite Hc. cbn [ce_d ce_dl ce_layer]. change (k_cache (chord_seen k code true time)) with (k_cache k) in *.
  unfold chord_seen. set (ca := upd j _ (k_cache k)).
  match goal with |- context [set_k_cache ca (set_k_chord ?q' k)] => set (q := q') end.
  assert (Ho : outkey o) by (exists code, m, dl; auto).
  destruct (key_press (set_k_cache ca (set_k_chord q k)) code o m dl time) as (mods & k' & E & Qk & Eo & F & W & Zm).
  - intros i. cbn [k_ls set_k_cache set_k_chord]. intros Hi. rewrite (j_ls _ _ HJ). apply H_depth.
    revert Hi. unfold nlayers. cbn [k_cfg set_k_cache set_k_chord]. now rewrite (j_cfg _ _ HJ).
  - now apply H_out.
  - exact (j_step _ _ _ HJ Ho).
  - rewrite E. cbn [bind]. unfold calculate_main_loop_timeout.
    eexists mods, _, _. split; [reflexivity|]. split.
    + apply j_timeouts. eapply j_frame; [exact HJ|exact Qk|apply HJ|..].
      * apply uniq_upd; [apply HJ|exact Hj1|]. right. right. exact Hun.
      * intros x. split.
        -- intros [<-|Hx].
           ++ split; auto. exists (mkCe code (DKey o m) dl 0). split; auto.
              unfold ca. clear -Hj1. revert j Hj1. induction (k_cache k) as [|y c IH]; intros [|j] H; cbn [length] in H; try lia;
                cbn [upd]; [now left|right; apply IH; lia].
           ++ apply HJ in Hx as [Hx [e [He Ex]]]. split; auto. exists e. split; auto.
              apply In_nth with (d := zero_ce) in He as [i [Hi Ei]]. unfold ca. rewrite <- Ei.
              replace (nth i (k_cache k) zero_ce) with (nth i (upd j (mkCe code (DKey o m) dl 0) (k_cache k)) zero_ce).
              ** apply nth_In. now rewrite upd_length.
              ** apply nth_upd_other. intros ->. rewrite Ei in Hj2. apply H_physical in Hx as [Hx _]. congruence.
        -- intros [Hx [e [He Ex]]]. unfold ca in He. apply In_upd in He as [->|He]; [left; exact Ex|].
           right. apply HJ. eauto.
      * intros e He Hse. unfold ca in He. apply In_upd in He as [->|He]; [|now apply HJ].
        exists o, m. auto.
      * pose proof (zc_upd (k_cache k) j (mkCe code (DKey o m) dl 0) Hj1) as Z. fold ca in Z.
        rewrite Hj2 in Z. change (0 =? 0)%N with true in Z. cbn [ce_code] in Z.
        destruct (N.eqb_spec code 0); [congruence|]. pose proof (j_free _ _ HJ) as X. unfold spare in X.
        unfold zc in Z |- *. cbn [length]. lia.
      * constructor; auto. apply HJ.
    + assert (Y : forall bit, wanted (set_k_cache ca (set_k_chord q k)) dl m bit <-> wanted k0 dl m bit).
      { intros bit. unfold wanted, layer_active, layer_mods. cbn [k_cfg k_ls set_k_cache set_k_chord].
        rewrite (j_cfg _ _ HJ), (j_ls _ _ HJ). reflexivity. }
      split; [exact Eo|]. split; [exact F|]. split; [intros bit mc Hm; rewrite (W bit mc Hm); apply Y|].
      intros Hok. apply Zm. intros bit mc Hm. rewrite Y. now apply Hok.
Qed.
Lemma plain_release fuel held k code time o m dl : J held k -> struck code -> In code held ->
  resolves k0 code (DKey o m) dl ->
  exists mods k' t, process_event (S fuel) k code false time = Ok (k', t)
    /\ J (remove N.eq_dec code held) k'
    /\ k_out k' = mods ++ lifted (k_out k) o ++ k_out k
    /\ Forall modifier_event mods
    /\ (forall bit mc, is_modifier bit mc ->
         (host_down (mods ++ lifted (k_out k) o ++ k_out k) mc = true <-> standing k0 bit))
    /\ ((forall bit mc, is_modifier bit mc ->
         (host_down (lifted (k_out k) o ++ k_out k) mc = true <-> standing k0 bit)) -> mods = []).
Proof.
  intros HJ Hs Hin Hres.
  assert (Hz : code <> 0%N) by apply (H_physical code Hs).
  rewrite process_event_idle by (try apply HJ; eauto using j_unchorded, j_due).
  unfold handle_key. destruct (N.eqb_spec code 0); [congruence|].
  pose proof (proj1 (j_held _ _ HJ code) Hin) as [_ [e [He Ee]]].
  destruct (j_binds _ _ HJ e He) as [o' [m' [Ed Rd]]]; [now rewrite Ee|].
  rewrite Ee in Rd. destruct (resolves_unique _ _ _ _ _ _ Hres Rd) as [X Edl]. injection X as <- <-.
  assert (R : SpecKept.remembered k code (DKey o m) dl (ce_layer e)).
  { unfold SpecKept.remembered. destruct e as [ec ed edl el]. cbn [ce_code ce_d ce_dl ce_layer] in *. subst. exact He. }
  destruct (remembered_find _ _ _ _ _ (j_uniq _ _ HJ) Hz R) as [j [Hj Ej]].
  pose proof (cache_find_at _ _ _ _ Hj) as [_ [Hlt Hcj]]. rewrite Nat.sub_0_r in Hlt, Hcj.
  unfold cache_get, cache_set, cache_nth. cbn [k_cache chord_seen set_k_chord]. rewrite Hj.
  rewrite (cache_slot_find _ _ _ None _ Hj). rewrite Ej. cbn [ce_d ce_dl ce_layer].
  unfold chord_seen. set (ca := upd j _ (k_cache k)).
  match goal with |- context [set_k_cache ca (set_k_chord ?q' k)] => set (q := q') end.
  assert (Ho : outkey o) by (exists code, m, dl; auto).
  destruct (key_release (set_k_cache ca (set_k_chord q k)) code o m dl time) as (mods & k' & E & Qk & Eo & F & W & Zm).
  - now apply H_out.
  - exact (j_step _ _ _ HJ Ho).
  - rewrite E. cbn [bind]. unfold calculate_main_loop_timeout.
    assert (Hzero : ~ struck 0%N) by (intros X; now apply H_physical in X as [X _]).
    eexists mods, _, _. split; [reflexivity|]. split.
    + apply j_timeouts. eapply j_frame; [exact HJ|exact Qk|apply HJ|..].
      * apply uniq_upd; [apply HJ|exact Hlt|]. left. reflexivity.
      * intros x. split.
        -- intros Hx. apply in_remove in Hx as [Hx Hne]. apply HJ in Hx as [Hx [e1 [He1 Ex]]]. split; auto. exists e1. split; auto.
           apply In_nth with (d := zero_ce) in He1 as [i [Hi Ei]]. unfold ca. rewrite <- Ei.
           match goal with |- In _ (upd j ?y _) =>
             replace (nth i (k_cache k) zero_ce) with (nth i (upd j y (k_cache k)) zero_ce) end.
           ++ apply nth_In. now rewrite upd_length.
           ++ apply nth_upd_other. intros ->. rewrite Ei in Hcj. congruence.
        -- intros [Hx [e1 [He1 Ex]]]. unfold ca in He1.
           apply In_nth with (d := zero_ce) in He1 as [i [Hi Ei]]. rewrite upd_length in Hi.
           destruct (Nat.eq_dec i j) as [->|Nij].
           ++ rewrite nth_upd_same in Ei by exact Hi. subst e1. cbn [ce_code] in Ex. subst x. contradiction.
           ++ rewrite nth_upd_other in Ei by congruence. apply in_in_remove.
              ** intros ->. apply Nij. apply (j_uniq _ _ HJ i j Hi Hlt); rewrite Ei, Ex; auto.
              ** apply HJ. split; auto. exists e1. split; auto. rewrite <- Ei. now apply nth_In.
      * intros e1 He1 Hse. unfold ca in He1. apply In_upd in He1 as [->|He1]; [|now apply HJ].
        cbn [ce_code] in Hse. contradiction.
      * pose proof (zc_upd (k_cache k) j (mkCe 0 (DKey o m) dl (ce_layer e)) Hlt) as Z. fold ca in Z.
        rewrite Hcj in Z. cbn [ce_code] in Z. change (0 =? 0)%N with true in Z.
        destruct (N.eqb_spec code 0); [congruence|]. pose proof (j_free _ _ HJ) as X. unfold spare in X.
        pose proof (remove_one held code (j_nodup _ _ HJ) Hin) as L. unfold zc in *. lia.
      * apply nodup_remove, HJ.
    + assert (Y : forall bit, standing (set_k_cache ca (set_k_chord q k)) bit <-> standing k0 bit).
      { intros bit. unfold standing, layer_active, layer_mods. cbn [k_cfg k_ls set_k_cache set_k_chord].
        rewrite (j_cfg _ _ HJ), (j_ls _ _ HJ). reflexivity. }
      split; [exact Eo|]. split; [exact F|]. split; [intros bit mc Hm; rewrite (W bit mc Hm); apply Y|].
      intros Hok. apply Zm. intros bit mc Hm. rewrite Y. now apply Hok.
Qed.

Lemma j_seen held k c p t ts : J held k -> J held (set_k_timeouts ts (chord_seen k c p t)).
Proof. intros [A1 A2 A3 A4 A5 A6 A7 A8 A9 A10 A11 A12]. constructor; auto. Qed.
Lemma plain_ignored fuel held k code (pressed : bool) time : J held k -> struck code ->
  (if pressed then In code held \/ n <= length held else ~ In code held) ->
  exists k' t, process_event (S fuel) k code pressed time = Ok (k', t) /\ J held k' /\ k_out k' = k_out k.
Proof.
  intros HJ Hs Hi.
  assert (Hz : code <> 0%N) by apply (H_physical code Hs).
  rewrite process_event_idle by (try apply HJ; eauto using j_unchorded, j_due).
  assert (G : handle_key (chord_seen k code pressed time) code pressed time = Ok (chord_seen k code pressed time)).
  { unfold handle_key. destruct (N.eqb_spec code 0); [congruence|].
    destruct (in_dec N.eq_dec code held) as [Hin|Hin].
    - destruct pressed; [|contradiction]. apply HJ in Hin as [_ [e [He Ee]]].
      destruct (cache_get (chord_seen k code true time) code) eqn:Eg; auto. exfalso.
      unfold cache_get in Eg. cbn [k_cache chord_seen set_k_chord] in Eg.
      assert (X : forall c i, In e c -> cache_find c code i <> None).
      { clear -Ee. induction c as [|y c IH]; intros i Hin; [destruct Hin|]. cbn [cache_find].
        destruct (N.eqb_spec (ce_code y) code) as [E|E]; [discriminate|]. destruct Hin as [->|Hin]; [congruence|]. now apply IH. }
      exact (X _ _ He Eg).
    - assert (Hun : unheld (chord_seen k code pressed time) code) by (exact (j_unheld _ _ _ HJ Hs Hin)).
      rewrite (cache_get_unheld _ _ Hun). destruct pressed; [|reflexivity].
      destruct Hi as [Hi|Hi]; [contradiction|].
      destruct (lookup_descriptor _ code) as [d dl].
      destruct (cache_set _ code _) as [k1|] eqn:Ec; auto. exfalso.
      apply cache_set_spec in Ec as [i [e [_ [Hlt [Hc _]]]]].
      cbn [k_cache chord_seen set_k_chord] in Hlt, Hc.
      destruct Hc as [Hc|[Hc _]].
      + apply (j_unheld _ _ _ HJ Hs Hin _ (nth_In _ zero_ce Hlt)). exact Hc.
      + pose proof (j_free _ _ HJ) as X. eapply zc_full; [|apply (nth_In _ zero_ce Hlt)|exact Hc].
        unfold spare in X. unfold zc. lia. }
  rewrite G. cbn [bind]. unfold calculate_main_loop_timeout. eexists _, _. split; [reflexivity|].
  split; [now apply j_seen|reflexivity].
Qed.
Lemma plain_tick fuel held k time : J held k ->
  exists k' t, process_event (S fuel) k 0%N false time = Ok (k', t) /\ J held k' /\ k_out k' = k_out k.
Proof.
  intros HJ. cbn [process_event]. rewrite process_event_plan, chord_plan_open by (split; [apply HJ|now left]).
  cbn [bind run_plan]. unfold after_chord, pending_plan. cbn [k_pend chord_seen set_k_chord].
  rewrite (proj1 (j_idle _ _ HJ)). cbn [N.eqb bind run_pplan].
  rewrite rest_nothing by (exact (j_due _ _ time HJ)). cbn [handle_key N.eqb bind].
  unfold calculate_main_loop_timeout. eexists _, _. split; [reflexivity|]. split; [now apply j_seen|reflexivity].
Qed.

(* ---- all events ------------------------------------------------------------------------- *)
Lemma plain_loop f : forall fuel evs held k t ts, J held k -> Forall (fun e => struck (ev_code e)) evs ->
  match pe_loop (process_event (S f)) fuel k evs t ts with
  | Ok (k', t') => types k0 n held (k_out k) evs (k_out k')
  | NoFuel => True
  | _ => False
  end.
Proof.
  induction fuel as [|fuel IH]; intros evs held k t ts HJ F; destruct evs as [|e rest]; cbn [pe_loop];
    try exact Logic.I; try apply ty_end.
  pose proof (Forall_inv F) as Hs. pose proof (Forall_inv_tail F) as F'. cbn beta in Hs.
  destruct (andb _ _).
  - destruct (plain_tick f held k ts HJ) as [k1 [t1 [E [HJ1 Eo]]]]. rewrite E. cbn [bind]. rewrite <- Eo. now apply IH.
  - destruct e as [code pressed time]. cbn [ev_code ev_pressed ev_time] in *.
    assert (Hig : (if pressed then In code held \/ n <= length held else ~ In code held)
               \/ (if pressed then ~ In code held /\ length held < n else In code held)).
    { destruct pressed, (in_dec N.eq_dec code held); auto. destruct (Nat.lt_ge_cases (length held) n); auto. }
    destruct Hig as [Hig|Hig].
    + destruct (plain_ignored f held k code pressed time HJ Hs Hig) as [k1 [t1 [E [HJ1 Eo]]]].
      rewrite E. cbn [bind]. specialize (IH rest held k1 t1 (time + t1)%Z HJ1 F').
      destruct (pe_loop _ _ _ _ _ _) as [[k2 t2]| | |]; auto. rewrite Eo in IH. apply ty_ignored; auto.
    + destruct (H_plain code Hs) as [o [m [dl Hres]]]. destruct pressed.
      * destruct Hig as [Hni Hl].
        destruct (plain_press f held k code time o m dl HJ Hs Hni Hl Hres) as (mods & k1 & t1 & E & HJ1 & Eo & Fm & W & Zm).
        rewrite E. cbn [bind]. specialize (IH rest (code :: held) k1 t1 (time + t1)%Z HJ1 F').
        destruct (pe_loop _ _ _ _ _ _) as [[k2 t2]| | |]; auto. rewrite Eo in IH. eapply ty_press; eauto.
      * destruct (plain_release f held k code time o m dl HJ Hs Hig Hres) as (mods & k1 & t1 & E & HJ1 & Eo & Fm & W & Zm).
        rewrite E. cbn [bind]. specialize (IH rest (remove N.eq_dec code held) k1 t1 (time + t1)%Z HJ1 F').
        destruct (pe_loop _ _ _ _ _ _) as [[k2 t2]| | |]; auto. rewrite Eo in IH. eapply ty_release; eauto.
        -- intros x. split; [intros Hx; now apply in_remove in Hx|]. intros [Hx Hn]. now apply in_in_remove.
        -- pose proof (remove_one held code (j_nodup _ _ HJ) Hig). lia.
Qed.
End Plain.
