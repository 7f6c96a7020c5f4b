(* Proofs for C80. *)
From Verif Require Import Base Lib Keys Types MacroExec Kbd Config Steps Hist SpecText SpecBind SpecWf ParseFrame ParseWf TextProofs BindProofs ActionProofs SpecMods SpecLookup SpecDefer SpecHist Outside
  ModsProofs LookupProofs ClassInv StepProofs Engine OneProofs Inv DeferProofs SpecRef RefProofs RefSteps RefRun SpecWait WaitProofs SpecFull FullProofs PropText PropFull PropClass SpecLive.
From Coq Require Import Permutation String.
Local Open Scope nat_scope.
Local Open Scope list_scope.
Local Notation length := List.length.

(* ---- two configurations of a session ----------------------------------------------------- *)
Definition fitting (c : config) (d : desc) : Prop :=
  match d with
  | DOverload _ a => ~ is_later (action c a) /\ ~ is_idle (action c a)
  | DOverloadI a b _ => ~ is_idle (action c a) /\ ~ is_idle (action c b)
  | _ => True
  end.
Record akin (c c' : config) : Prop := {
  a_count : length (c_layers c') = length (c_layers c);
  a_kind : forall i, ly_type (the c' i) = ly_type (the c i);
  a_swap : swapping c' = swapping c }.

Section Akin.
Variables (c c' : config).
Hypothesis A : akin c c'.
Hypothesis W : wf_config c'.
Hypothesis U : unmixed c'.
Hypothesis E : entire c'.

Lemma same_layer l : a_layer c l -> a_layer c' l.
Proof. intros [H1 H2]. split; [now rewrite (a_count _ _ A)|now rewrite (a_kind _ _ A)]. Qed.
Lemma same_plain d : plain_action c d -> plain_action c' d.
Proof.
  pose proof same_layer as L. destruct d; cbn [plain_action]; rewrite ?(a_swap _ _ A), ?(a_count _ _ A), ?(a_kind _ _ A); auto;
    first [intros [[X1 X2] X3]; auto; fail|intros [X1 X2]; auto].
Qed.
Lemma same_late d : late_action c d -> late_action c' d.
Proof. destruct d; cbn [late_action]; auto using same_layer. Qed.
Lemma same_sure d : fitting c' d -> sure_action c d -> sure_action c' d.
Proof.
  intros P H. destruct d; try exact (same_plain _ H); try exact (same_layer _ H). destruct H as [H1 H2]. split; [exact (same_layer _ H1)|].
  cbn [fitting] in P. destruct (Nat.lt_ge_cases a (length (c_descs c'))) as [L|L].
  - destruct U as (U1 & U2 & U3). apply (tap_ok c' W U1 U2 U3 _ a); [exact L|lia|apply P|apply P].
  - rewrite nth_overflow by exact L. destruct (length (c_descs c')); exact Logic.I.
Qed.
Lemma same_settled d : fitting c' d -> settled_action c d -> settled_action c' d.
Proof. intros P [H|H]; [left; now apply same_sure|right; now apply same_late]. Qed.
Lemma general_settled x d : ~ is_idle d -> general_action x d -> settled_action x d.
Proof. intros H. destruct d; auto. elim H. exact Logic.I. Qed.
Lemma same_general d : fitting c' d -> general_action c d -> general_action c' d.
Proof.
  intros P H. destruct d; try exact (same_settled _ P H). destruct P as [P1 P2]. destruct E as (_ & E2 & _).
  split; apply general_settled; [exact P1|exact (E2 a1)|exact P2|exact (E2 a2)].
Qed.
Lemma same_dawn : dawn c' = dawn c.
Proof.
  unfold dawn. rewrite (a_count _ _ A). replace (existsb _ _) with (existsb (fun i => is_layout (ly_type (the c i))) (seq 1 (length (c_layers c) - 1))); [reflexivity|].
  induction (seq 1 (length (c_layers c) - 1)) as [|i l IH]; cbn [existsb]; [reflexivity|]. now rewrite IH, (a_kind _ _ A).
Qed.
Definition remembers (P : desc -> Prop) (k : kbd) : Prop :=
  (forall d, In d (map ce_d (k_cache k)) -> P d) /\ (forall ac, In ac (k_achords k) -> P (ch_d (ac_chord ac))) /\ P (p_a1 (k_pend k)) /\ P (p_a2 (k_pend k)).

Lemma rebound s k : V c s k -> ~ striking k -> g_todo s = [] -> (g_try s = Replaying -> False) -> fits c' k -> V c' s (set_k_cfg c' k).
Proof.
  intros (p & [H1 R] & O & Q) Hs Ht Hr M.
  assert (M2 : forall ac, In ac (k_achords k) -> fitting c' (ch_d (ac_chord ac))) by (intros ac Hac; apply M; right; left; now exists ac).
  assert (Ec : g_try s = Calm).
  { pose proof (r_chords _ _ _ _ _ _ _ _ _ _ _ _ _ _ _ _ _ _ R) as [T _]. unfold striking in Hs.
    destruct (g_try s) as [| |a|a]; [reflexivity|elim Hr; reflexivity| |]; elim Hs; [left|right]; apply T. }
  assert (Ep : k_pend k = p) by exact (r_pend _ _ _ _ _ _ _ _ _ _ _ _ _ _ _ _ _ _ R).
  exists p. split; [|split].
  - split; [exact H1|]. destruct R. constructor; try assumption; try reflexivity.
    + intros X. apply r_marks. now rewrite <- (a_swap _ _ A).
    + intros X. apply r_unlocked. now rewrite <- (a_swap _ _ A).
    + intros h Hh. pose proof (Permutation_in _ (Permutation_sym r_used) Hh) as I. apply (used_In idv) in I as (e & I1 & I2 & Eh). pose proof (r_held h Hh) as X. rewrite Eh in *. cbn [fst snd] in *.
      apply same_settled; [|exact X]. apply M. left. now exists e.
    + intros i Hi. destruct (r_locked i Hi). auto using same_layer.
    + intros i Hi. auto using same_layer.
    + now rewrite (a_count _ _ A), (a_kind _ _ A).
    + intros i. rewrite (a_kind _ _ A). apply r_layouts.
    + intros i Hi. rewrite same_dawn. destruct (r_recent i Hi). split; [assumption|now apply same_layer].
    + intros i Hi. rewrite same_dawn. exact (r_old i Hi).
    + now rewrite same_dawn.
    + cbn [f_chords] in *. destruct r_chords as [T F]. split; [rewrite Ec in *; exact T|exact F].
  - destruct (g_wait s) as [w|]; cbn [okv] in *; [|exact O]. destruct O as (O1 & (d & O2 & O3) & O4 & O5 & O6 & O7).
    split; [exact O1|]. split; [exists d; split; [exact O2|now apply same_late]|]. split; [exact O4|].
    subst p.
    split; [apply same_general; [apply M; right; right; rewrite Ep; split; [exact O4|auto]|assumption]|]. split; [apply same_general; [apply M; right; right; rewrite Ep; split; [exact O4|auto]|assumption]|exact O7].
  - intros q Hq. specialize (Q q Hq). apply same_general; [|exact Q].
    pose proof (r_chords _ _ _ _ _ _ _ _ _ _ _ _ _ _ _ _ _ _ R) as [_ F]. cbn [f_chords] in F. clear - F Hq M2.
    induction F as [|x ac ps acs H1 F IH]; [destruct Hq|]. destruct Hq as [->|Hq].
    + destruct H1 as (_ & _ & <- & _). apply M2. now left.
    + apply IH; [|exact Hq]. intros ac' I. apply M2. now right.
Qed.
End Akin.

(* the parts of an action are among the first n actions of the table *)
Definition parts_below (n : nat) (d : desc) : Prop :=
  match d with
  | DOverload _ a | DOverloadT _ a _ | DOverloadT2 _ a _ => a < n
  | DOverloadI a b _ | DTimeout a _ b => a < n /\ b < n
  | _ => True
  end.
(* ---- what is remembered ---------------------------------------------------------------- *)
Lemma parts_closed n : closed (parts_below n).
Proof. constructor; intros; exact Logic.I. Qed.
Lemma parts_more n m d : n <= m -> parts_below n d -> parts_below m d.
Proof. intros H. destruct d; cbn [parts_below]; intuition lia. Qed.
Lemma parts_ok c x y z d : ok_desc c (N.of_nat x) y z d -> parts_below x d.
Proof. destruct d; cbn [ok_desc parts_below]; try (intros; exact Logic.I); intuition lia. Qed.
Lemma parts_all c : wf_config c -> cfg_all (parts_below (length (c_descs c))) c.
Proof.
  intros W. assert (A : forall d, appears c d -> parts_below (length (c_descs c)) d) by (intros d A; exact (parts_ok _ _ _ _ _ (appears_ok c W d A))).
  split; [intros i x|split; [intros i ch I|intros d I]]; apply A; [left; now exists i, x|right; right; now exists i, ch|right; now left].
Qed.
Lemma remembers_more n m k : n <= m -> remembers (parts_below n) k -> remembers (parts_below m) k.
Proof.
  intros H (A & B & X & Y). split; [intros d I; exact (parts_more _ _ _ H (A d I))|]. split; [intros d I; exact (parts_more _ _ _ H (B d I))|]. split; eapply parts_more; eauto.
Qed.
Lemma event_alld P fuel k code pressed time k' t : closed P -> process_event fuel k code pressed time = Ok (k', t) -> alld P k -> alld P k'.
Proof.
  intros HP H A.
  assert (G : IQ (alld P) (fun _ => True) k').
  { eapply simple_lift; [..|exact H]; auto.
    - intros. eapply chord_alld; eauto.
    - intros k0 q a t0 k1 B Hp Ha Ho Hd. pose proof B as [_ [_ [_ [B4 B5]]]].
      eapply decide_alld; eauto. destruct Ha as [Ha|Ha]; rewrite Ha; auto.
    - intros. eapply rest_alld; eauto.
    - split; auto. split; apply Forall_forall; auto. }
  apply G.
Qed.
Lemma event_cfg fuel k code pressed time k' t : process_event fuel k code pressed time = Ok (k', t) -> k_cfg k' = k_cfg k /\ k_orig k' = k_orig k.
Proof. intros H. apply process_event_steps in H. now apply steps_cfg. Qed.

(* ---- what a binding does to the configuration -------------------------------------------- *)
Record follows (c c' : config) : Prop := {
  w_count : length (c_layers c') = length (c_layers c);
  w_kind : forall i, ly_type (the c' i) = ly_type (the c i);
  w_more : exists x, c_descs c' = c_descs c ++ x }.
Lemma follows_refl c : follows c c.
Proof. constructor; auto. exists []. now rewrite app_nil_r. Qed.
Lemma follows_trans c1 c2 c3 : follows c1 c2 -> follows c2 c3 -> follows c1 c3.
Proof.
  intros [A1 A2 (x & A3)] [B1 B2 (y & B3)]. constructor; [congruence|intros; congruence|]. exists (x ++ y). rewrite B3, A3. now rewrite app_assoc.
Qed.
Lemma follows_akin c c' : follows c c' -> swapping c' = swapping c -> akin c c' /\ akin c' c.
Proof. intros [A1 A2 _] Hs. split; constructor; auto. Qed.
Lemma follows_same c c' a : follows c c' -> a < length (c_descs c) -> action c' a = action c a.
Proof. intros [_ _ (x & A3)] Ha. unfold action. rewrite A3. now apply app_nth1. Qed.
(* of what is remembered *)
Lemma tap_plain c m d : tap_action c m d -> ~ is_later d /\ ~ is_idle d.
Proof. destruct m; destruct d; cbn; tauto. Qed.
Lemma settled_not_idle c d : settled_action c d -> ~ is_idle d.
Proof. intros H I. destruct d; try contradiction I. destruct H as [H|H]; contradiction H. Qed.
Lemma general_fitting c d : general_action c d -> fitting c d.
Proof.
  destruct d; try (intros; exact Logic.I).
  - intros [H|H]; [|contradiction H]. destruct H as [_ H]. exact (tap_plain _ _ _ H).
  - intros [H1 H2]. split; [exact (settled_not_idle _ _ H1)|exact (settled_not_idle _ _ H2)].
Qed.
Lemma V_general c s k d : V c s k -> kept_action k d -> general_action c d.
Proof.
  intros (p & [_ R] & O & Q) [(e & I1 & I2 & <-)|[(ac & I & <-)|(Hp & Hd)]].
  - assert (S0 : settled_action c (ce_d e)).
    { apply (r_held _ _ _ _ _ _ _ _ _ _ _ _ _ _ _ _ _ _ R (ce_code e, (ce_d e, ce_dl e))).
      apply (Permutation_in _ (r_used _ _ _ _ _ _ _ _ _ _ _ _ _ _ _ _ _ _ R)). apply (used_In idv). exists e. auto. }
    pose proof (settled_not_idle _ _ S0) as Ni. destruct (ce_d e); try exact S0. elim Ni. exact Logic.I.
  - pose proof (r_chords _ _ _ _ _ _ _ _ _ _ _ _ _ _ _ _ _ _ R) as [_ F]. cbn [f_chords] in F. clear - F I Q.
    induction F as [|x a ps acs H1 F IH]; [destruct I|]. destruct I as [-> |I].
    + destruct H1 as (_ & _ & -> & _). apply Q. now left.
    + apply IH; [|exact I]. intros q Hq. apply Q. now right.
  - assert (Ep : k_pend k = p) by exact (r_pend _ _ _ _ _ _ _ _ _ _ _ _ _ _ _ _ _ _ R). rewrite Ep in *.
    destruct (g_wait s) as [w|]; cbn [okv] in O; [|elim Hp; apply O]. destruct O as (O1 & _ & _ & O5 & O6 & _). rewrite O1 in Hd. destruct Hd as [<-|<-]; assumption.
Qed.
Lemma fitting_on c c' d : follows c c' -> parts_below (length (c_descs c)) d -> fitting c d -> fitting c' d.
Proof.
  intros Fw P. destruct d; cbn [fitting parts_below] in *; try (intros; exact Logic.I); [rewrite (follows_same _ _ _ Fw P); auto|].
  destruct P as [P1 P2]. rewrite (follows_same _ _ _ Fw P1), (follows_same _ _ _ Fw P2). auto.
Qed.
Lemma fitting_back c c' d : follows c c' -> fitting c' d -> fitting c d.
Proof.
  intros Fw. assert (X : forall a, action c a = action c' a \/ action c a = DNone).
  { intros a. destruct (Nat.lt_ge_cases a (length (c_descs c))) as [L|L]; [left; symmetry; now apply follows_same|right]. unfold action. now apply nth_overflow. }
  destruct d; cbn [fitting]; try (intros; exact Logic.I).
  - destruct (X a) as [-> | ->]; [auto|]. intros _. split; intros [].
  - destruct (X a1) as [-> | ->], (X a2) as [-> | ->]; try tauto; intros [Y1 Y2]; split; auto; intros [].
Qed.
Lemma remembers_kept P k d : remembers P k -> kept_action k d -> P d.
Proof.
  intros (A & B & X & Y) [(e & I1 & _ & <-)|[(ac & I & <-)|(_ & [<-|<-])]]; auto. apply A. now apply in_map.
Qed.
Lemma bind_follows k e k' ok : inv (k_cfg k) -> kbd_eval k e = Ok (k', ok) -> e <> bs "reset" ->
  k' = set_k_cfg (k_cfg k') k /\ follows (k_cfg k) (k_cfg k') /\ inv (k_cfg k').
Proof.
  intros W H Hr.
  assert (I : inv (k_cfg k')).
  { unfold kbd_eval in H. destruct (str_eqb e (bs "reset")) eqn:Er; [now apply str_eqb_true in Er|]. bstep H r E. destruct r as [c' o].
    apply Ok_inj in H. injection H as <- _. exact (config_add_entry_ok _ _ _ _ W E). }
  destruct ok.
  - destruct (target_total e) as (ln & s & T). destruct (entry_total s) as ([key val] & En).
    unfold kbd_eval in H. destruct (str_eqb e (bs "reset")) eqn:Er; [now apply str_eqb_true in Er|]. bstep H r E. destruct r as [c' o].
    apply Ok_inj in H. injection H as <- ->. cbn [k_cfg set_k_cfg] in *. split; [reflexivity|]. split; [|exact I].
    destruct (bind_ok _ _ _ _ _ _ _ E T En) as (i & l & d & l' & _ & El & _ & (TE & _) & _ & EL & Es).
    assert (Et : ly_type l' = ly_type l).
    { clear - Es. unfold set_layer_entry in Es. repeat match type of Es with (match ?x with _ => _ end = _) => destruct x end; try discriminate; injection Es as <-; reflexivity. }
    constructor; [rewrite EL; apply length_upd| |exact TE].
    intros j. unfold the. rewrite EL. destruct (Nat.eq_dec i j) as [Hj|Hj].
    + subst j. rewrite (nth_error_nth _ _ zero_layer El). assert (L : i < length (c_layers (k_cfg k))) by (apply nth_error_Some; congruence).
      now rewrite nth_upd_same.
    + now rewrite nth_upd_other.
  - apply C31_fail in H as (A1 & A2 & (A3 & _) & _). split; [exact A1|]. split; [|exact I]. constructor; [now rewrite A2|intros i; unfold the; now rewrite A2|exact A3].
Qed.

(* ---- the whole ----------------------------------------------------------------------------- *)
Lemma course_app c l1 l2 : course c (l1 ++ l2) = fold_left moved l2 (course c l1).
Proof. unfold course. apply fold_left_app. Qed.
Lemma turns_moved l : forall x, fold_left moved (map Turn l) x = (fst x, fold_left (act_all (fst x)) l (snd x)).
Proof.
  induction l as [|i l IH]; intros [x s]; [reflexivity|]. cbn [map fold_left moved fst snd]. rewrite IH. reflexivity.
Qed.
Lemma deeds_app l1 l2 : deeds (l1 ++ l2) = deeds l1 ++ deeds l2.
Proof. unfold deeds. apply flat_map_app. Qed.
Lemma deeds_turns l : deeds (map Turn l) = map Event (given l).
Proof.
  induction l as [|i l IH]; [reflexivity|]. change (deed_of (Turn i) ++ deeds (map Turn l) = map Event (given (i :: l))). rewrite IH. destruct i; reflexivity.
Qed.
Lemma over_act c i s : (g_try s = Replaying -> In Over (g_todo s)) -> g_try (act_all c s i) = Replaying -> In Over (g_todo (act_all c s i)).
Proof.
  intros IH. unfold act_all. destruct i as [e| |t].
  - destruct (g_todo s) as [|x r] eqn:Et; [|rewrite Et; exact IH]. apply over_turns0. rewrite Et. exact IH.
  - destruct (g_todo s) as [|[e0|e0|] r] eqn:Et; [rewrite Et; exact IH| | |discriminate].
    + apply over_turns0. cbn [g_todo pop g_try]. intros X. destruct (IH X) as [Y|Y]; [discriminate Y|exact Y].
    + apply over_turns0. cbn [g_todo pop g_try]. intros X. destruct (IH X) as [Y|Y]; [discriminate Y|exact Y].
  - destruct (g_todo s) as [|[e0|e0|] r] eqn:Et; try (rewrite Et; exact IH). destruct (_ <=? _)%Z; [|rewrite Et; exact IH]. apply over_turns0. rewrite Et. exact IH.
Qed.
Lemma over_course c l : g_try (snd (course c l)) = Replaying -> In Over (g_todo (snd (course c l))).
Proof.
  induction l as [|m l IH] using rev_ind; [discriminate|]. rewrite course_app. cbn [fold_left]. destruct (course c l) as [x s]. destruct m as [i|c']; cbn [moved fst snd] in *; [|exact IH].
  now apply over_act.
Qed.

Section Live.
Variables (G : config -> Prop) (F : config -> kbd -> Prop) (R : Prop) (c : config) (clk : Z).
Hypothesis I0 : inv c.
Hypothesis HG : forall x, G x -> unmixed x /\ swapping x = swapping c.
Hypothesis HF : (forall x k, F x k -> fits x k) \/ ~ R.
Hypothesis Hk : (dawn c <= clk)%Z.

Lemma live_runs ds k : session G F R c clk ds k ->
  (forall l rest, deeds l ++ rest = ds -> length (m_shots (g_m (snd (course c l)))) < 200) ->
  exists l, deeds l = ds /\ fst (course c l) = k_cfg k /\ g_todo (snd (course c l)) = [] /\ V (k_cfg k) (snd (course c l)) k
    /\ k_orig k = c /\ inv (k_cfg k) /\ follows c (k_cfg k) /\ G (k_cfg k) /\ G c /\ (~ R -> remembers (parts_below (length (c_descs (k_cfg k)))) k).
Proof.
  intros H. induction H as [Gc|ds k fuel e k' t H IH E|ds k exp k' ok H IH Hs Hr E Gk Fk0|ds k k' ok H IH Rr Hs E|ds k k' H IH Ou]; intros L.
  - exists []. cbn [course fold_left fst snd]. assert (Ec : k_cfg (new_keyboard c clk) = c) by reflexivity. rewrite Ec.
    split; [reflexivity|]. split; [reflexivity|]. split; [reflexivity|]. split; [exact (start_V c clk Hk)|]. split; [reflexivity|]. split; [exact I0|]. split; [apply follows_refl|]. split; [exact Gc|]. split; [exact Gc|].
    intros _. split; [|split; [|split; exact Logic.I]].
    + intros d Hd. apply in_map_iff in Hd as [e [<- Hd]]. apply repeat_spec in Hd. subst. exact Logic.I.
    + intros ac Hac. apply repeat_spec in Hac. subst. exact Logic.I.
  - destruct IH as (l & D & Ef & T & Vk & Eo & Ik & Fk & Gk & Gc & Mk).
    { intros l rest El. apply (L l (rest ++ [Event e])). now rewrite app_assoc, El. }
    destruct (event_cfg _ _ _ _ _ _ _ E) as [X1 X2].
    destruct (course c l) as [x s] eqn:Ecl. cbn [fst snd] in *. subst x.
    assert (Ent : entire (k_cfg k)) by (apply class_ok; [apply Ik|apply HG, Gk]).
    assert (Ea : act_all (k_cfg k) s (Given e) = feed_all (k_cfg k) e s) by (unfold act_all; now rewrite T).
    assert (Sf : safe (k_cfg k) (feed_all (k_cfg k) e s)).
    { intros l' Gl'. rewrite <- Ea. specialize (L (l ++ map Turn (Given e :: l')) []). rewrite course_app, Ecl, turns_moved in L. apply L.
      rewrite deeds_app, D, deeds_turns. change (given (Given e :: l')) with (e :: given l'). rewrite Gl'. now rewrite app_nil_r. }
    destruct (every_event (k_cfg k) Ent fuel s k e k' t Vk) as (l2 & G2 & W2 & T2); try assumption.
    { specialize (L l [Event e]). rewrite Ecl in L. apply L. now rewrite D. }
    rewrite <- Ea in *. exists (l ++ map Turn (Given e :: l2)). rewrite course_app, Ecl, turns_moved. cbn [fst snd fold_left]. rewrite X1, X2.
    split. { rewrite deeds_app, D, deeds_turns. change (given (Given e :: l2)) with (e :: given l2). now rewrite G2. }
    split; [reflexivity|]. split; [now rewrite T2|]. split; [exact W2|]. split; [exact Eo|]. split; [exact Ik|]. split; [exact Fk|]. split; [exact Gk|]. split; [exact Gc|].
    intros Nr. apply (event_alld _ _ _ _ _ _ _ _ (parts_closed (length (c_descs (k_cfg k)))) E). split; [apply parts_all, Ik|exact (Mk Nr)].
  - destruct IH as (l & D & Ef & T & Vk & Eo & Ik & Fk & Gk0 & Gc & Mk).
    { intros l rest El. apply (L l (rest ++ [Binding (k_cfg k')])). now rewrite app_assoc, El. }
    destruct (bind_follows _ _ _ _ Ik E Hr) as (Ek & Fw & Ik'). pose proof (over_course c l) as Ov. rewrite T in Ov.
    destruct (follows_akin _ _ Fw) as [Ak _]. { transitivity (swapping c); [apply HG, Gk|symmetry; apply HG, Gk0]. }
    assert (Fit : fits (k_cfg k') k).
    { destruct HF as [Hf|Nr]; [now apply Hf|]. intros d Hd. apply (fitting_on _ _ d Fw (remembers_kept _ _ _ (Mk Nr) Hd)). apply general_fitting. exact (V_general _ _ _ _ Vk Hd). }
    assert (Ld : length (c_descs (k_cfg k)) <= length (c_descs (k_cfg k'))) by (destruct (w_more _ _ Fw) as [x Ex]; rewrite Ex, app_length; lia).
    exists (l ++ [Rebind (k_cfg k')]). rewrite course_app. cbn [fold_left moved fst snd]. set (c' := k_cfg k') in *. clearbody c'. subst k'. cbn [k_cfg k_orig set_k_cfg].
    split; [rewrite deeds_app, D; reflexivity|]. split; [reflexivity|]. split; [exact T|]. split.
    { apply (rebound _ _ Ak (proj1 Ik') (proj1 (HG _ Gk))); try assumption. apply class_ok; [apply Ik'|apply HG, Gk]. }
    split; [exact Eo|]. split; [exact Ik'|]. split; [exact (follows_trans _ _ _ Fk Fw)|]. split; [exact Gk|]. split; [exact Gc|].
    intros Nr. exact (remembers_more _ _ k Ld (Mk Nr)).
  - destruct IH as (l & D & Ef & T & Vk & Eo & Ik & Fk & Gk0 & Gc & Mk).
    { intros l rest El. apply (L l (rest ++ [Binding c])). now rewrite app_assoc, El. }
    pose proof (over_course c l) as Ov. rewrite T in Ov.
    unfold kbd_eval in E. change (str_eqb (bs "reset") (bs "reset")) with true in E. cbn iota in E. apply Ok_inj in E. injection E as <- _. rewrite Eo.
    destruct (follows_akin _ _ Fk) as [_ Ak]. { apply HG, Gk0. }
    assert (Fit : fits c k).
    { intros d Hd. apply (fitting_back _ _ d Fk). apply general_fitting. exact (V_general _ _ _ _ Vk Hd). }
    exists (l ++ [Rebind c]). rewrite course_app. cbn [fold_left moved fst snd k_cfg k_orig set_k_cfg].
    split; [rewrite deeds_app, D; reflexivity|]. split; [reflexivity|]. split; [exact T|]. split.
    { apply (rebound _ _ Ak (proj1 I0) (proj1 (HG _ Gc))); try assumption. apply class_ok; [apply I0|apply HG, Gc]. }
    split; [exact Eo|]. split; [exact I0|]. split; [apply follows_refl|]. split; [exact Gc|]. split; [exact Gc|]. intros Nr. elim (Nr Rr).
  - destruct (IH L) as (l & D & Ef & T & Vk & R0). exists l.
    assert (X : k_cfg k' = k_cfg k /\ k_orig k' = k_orig k /\ (forall P, remembers P k -> remembers P k')) by (destruct Ou; auto). destruct X as (-> & -> & X3).
    split; [exact D|]. split; [exact Ef|]. split; [exact T|]. split; [exact (outside_V _ _ k _ Vk Ou)|]. destruct R0 as (R1 & R2 & R3 & R4 & R5 & R6).
    split; [exact R1|]. split; [exact R2|]. split; [exact R3|]. split; [exact R4|]. split; [exact R5|]. intros Nr. exact (X3 _ (R6 Nr)).
Qed.
End Live.
