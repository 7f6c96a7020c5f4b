(* C87: a keyboard that is left alone comes to rest. *)
From Coq Require Import String.
From Verif Require Import Base Lib Keys Types MacroExec Kbd Config Outside Engine Steps Hist ModsProofs ActProofs OneProofs StepProofs Inv LiftOk ClassInv SpecActions
  SpecLookup SpecHist TimerProofs KeptProofs SpecTimer TimelyProofs LookupProofs PropSteps SpecNotation PropNotation PropMacro ExTools SpecDefer DeferProofs WfHist PropTimer
  SpecTrace SpecStuck SpecAccount CacheProofs Account SpecWf ParseWf PropTerm PropAccount SpecRest.
Local Open Scope nat_scope.
Local Open Scope list_scope.
Local Notation length := List.length.

(* ---- one call ------------------------------------------------------------------------------ *)
Lemma tick_eq f k t : idle k ->
  process_event (S f) k 0%N false t
  = (k1 <- rest_step (chord_seen k 0 false t) 0%N false t ;; Ok (calculate_main_loop_timeout k1 t)).
Proof.
  intros [Hp Hs]. cbn [process_event]. rewrite process_event_plan. rewrite chord_plan_open by (split; [exact Hs|now left]).
  cbn [bind run_plan]. unfold after_chord, pending_plan. cbv zeta. cbn [k_pend chord_seen set_k_chord]. rewrite Hp. reflexivity.
Qed.
Lemma rest_settled k t : k_amacro k = None -> rest_step k 0%N false t = expire_oneshot k t.
Proof.
  intros H. unfold rest_step. destruct (expire_oneshot k t) as [k3| | |] eqn:E; cbn [bind]; try reflexivity.
  assert (X : k_amacro k3 = None).
  { unfold expire_oneshot in E. destruct (_ && _); [|apply Ok_inj in E; now subst].
    bstep E k5 E5. apply Ok_inj in E. subst k3. norm_states. kcbn. exact H. }
  unfold run_active_macro. rewrite X. reflexivity.
Qed.
Lemma deact_total k i : (exists k', deactivate_layer k i = Ok k') \/ deactivate_layer k i = UB \/ deactivate_layer k i = Crash CLayerInactive.
Proof.
  unfold deactivate_layer, chk_layer. destruct (Nat.ltb _ _); cbn [bind]; [|auto]. destruct (_ =? _)%N; eauto.
Qed.
Lemma drop_total i n : i < MAX_LAYERS -> forall k, (exists k', drop_oneshots n k i = Ok k') \/ drop_oneshots n k i = Crash CLayerInactive.
Proof.
  intros Hi. induction n as [|n IH]; intros k; cbn [drop_oneshots]; [eauto|].
  destruct (deact_total k i) as [[k' ->]|[E| ->]]; cbn [bind]; [apply IH| |auto].
  exfalso. unfold deactivate_layer, chk_layer in E. replace (Nat.ltb i MAX_LAYERS) with true in E by (symmetry; now apply Nat.ltb_lt).
  cbn [bind] in E. destruct (_ =? _)%N; discriminate.
Qed.
Lemma clear_total l : forall k, (forall i, In i l -> i < MAX_LAYERS) ->
  (exists k', clear_oneshot_layers l k = Ok k') \/ clear_oneshot_layers l k = Crash CLayerInactive.
Proof.
  induction l as [|i l IH]; intros k H; cbn [clear_oneshot_layers]; [eauto|].
  destruct (drop_total i (N.to_nat (l_depth (k_ls k i))) (H i (or_introl eq_refl)) k) as [[k' ->]| ->]; cbn [bind]; [|auto].
  apply IH. intros j Hj. apply H. now right.
Qed.
Lemma expire_total k t : nlayers k <= MAX_LAYERS -> (exists k', expire_oneshot k t = Ok k') \/ expire_oneshot k t = Crash CLayerInactive.
Proof.
  intros H. unfold expire_oneshot. destruct (_ && _); [|eauto]. unfold clear_oneshot.
  destruct (clear_total (seq 0 (nlayers k)) k) as [[k' ->]| ->]; cbn [bind]; eauto. intros i Hi. apply in_seq in Hi. lia.
Qed.
Lemma expire_ends k t k1 : expire_oneshot k t = Ok k1 ->
  k_amacro k1 = k_amacro k /\ k_pend k1 = k_pend k /\ k_chord k1 = k_chord k /\ k_timeouts k1 = k_timeouts k /\ k_cfg k1 = k_cfg k
  /\ (exists new, k_out k1 = new ++ k_out k /\ Forall ending new)
  /\ (k_oneshot_to k = 0%Z -> k1 = k).
Proof.
  unfold expire_oneshot. destruct (Z.eqb_spec (k_oneshot_to k) 0) as [Z0|Z0]; cbn [negb andb].
  { intros E. apply Ok_inj in E. subst k1. repeat split; auto. exists []. split; auto. }
  destruct (_ <=? _)%Z; [|intros E; apply Ok_inj in E; subst k1; repeat split; auto; exists []; split; auto].
  intros E. bstep E k5 E5. apply Ok_inj in E. subst k1. apply clear_oneshot_ok in E5 as [ls [ns [-> [Hn _]]]].
  match goal with |- context [update_mods false ?x None 0%N] => destruct (update_mods_events false x None 0%N) as [pre [Hp Fp]] end.
  rewrite Hp. norm_states. kcbn. repeat split; auto.
  - exists (pre ++ ns). split; [now rewrite <- app_assoc|]. apply Forall_app. split.
    + eapply Forall_impl; [|exact Fp]. intros e [mask [c [p [-> I]]]]. cbn [ending]. eauto.
    + apply Forall_forall. intros e He. rewrite forallb_forall in Hn. specialize (Hn e He). destruct e; try discriminate Hn. cbn [ending].
      cbn in Hn. destruct on; [discriminate|reflexivity].
  - intros X. congruence.
Qed.
Lemma tick_settled f k t k1 d1 : settled k -> process_event f k 0%N false t = Ok (k1, d1) ->
  settled k1 /\ k_timeouts k1 = filter (fun x => (t <? x)%Z) (k_timeouts k) /\ k_cfg k1 = k_cfg k
  /\ exists new, k_out k1 = new ++ k_out k /\ Forall ending new /\ (k_oneshot_to k = 0%Z -> new = [] /\ k_oneshot_to k1 = 0%Z).
Proof.
  intros [Hi Hm] H. destruct f as [|f]; [discriminate|]. rewrite tick_eq in H by exact Hi.
  rewrite rest_settled in H by exact Hm. bstep H k2 E. apply Ok_inj in H. unfold calculate_main_loop_timeout in H.
  apply pair_equal_spec in H as [<- _]. apply expire_ends in E as (A & B & C & D & F & [new [G1 G2]] & Z0).
  cbn [k_amacro chord_seen set_k_chord k_pend k_chord k_timeouts k_cfg k_out k_oneshot_to] in *. destruct Hi as [Hp Hs].
  split; [split; [split|]|split; [|split]].
  - cbn [k_pend set_k_timeouts]. now rewrite B.
  - cbn [k_chord set_k_timeouts]. rewrite C. exact Hs.
  - cbn [k_amacro set_k_timeouts]. now rewrite A.
  - cbn [k_timeouts set_k_timeouts]. now rewrite D.
  - exact F.
  - exists new. split; [exact G1|]. split; [exact G2|]. intros X. specialize (Z0 X). subst k2. split; [|exact X].
    cbn [k_out chord_seen set_k_chord] in G1. destruct new as [|e new]; [reflexivity|]. exfalso. apply (f_equal (@length oev)) in G1. rewrite app_length in G1. cbn [length] in G1. lia.
Qed.
Lemma filter_le (f : Z -> bool) l : length (filter f l) <= length l.
Proof. induction l as [|y l IH]; cbn [filter length]; [lia|]. destruct (f y); cbn [length]; lia. Qed.
Lemma filter_less (f : Z -> bool) l x : In x l -> f x = false -> length (filter f l) < length l.
Proof.
  induction l as [|y l IH]; intros H E; [contradiction|]. cbn [filter length]. destruct H as [->|H].
  - rewrite E. pose proof (filter_le f l). lia.
  - specialize (IH H E). destruct (f y); cbn [length]; lia.
Qed.
(* one call leaves fewer timers *)
Lemma told_less c T k d f k1 d1 : told c T k d -> settled k -> (0 < d)%Z -> process_event f k 0%N false (T + d)%Z = Ok (k1, d1) ->
  length (k_timeouts k1) < length (k_timeouts k).
Proof.
  intros H Hs Hd E. apply told_timeline in H as (_ & _ & [[_ ->]|(x & Hx & -> & _)]); [lia|].
  apply tick_settled in E as (_ & -> & _); [|exact Hs]. apply (filter_less _ _ x Hx). apply Z.ltb_ge. lia.
Qed.

(* ---- C87 ------------------------------------------------------------------------------------- *)
(* Left alone with nothing undecided and no macro repeating, a keyboard asks for at most as
   many calls as it has timers; nothing becomes undecided and nothing is sent
   but the end of oneshot layers. *)
Theorem C87_bounded : forall c n T k d k' d' T', told c T k d -> settled k -> ticks n k d T k' d' T' ->
  n + length (k_timeouts k') <= length (k_timeouts k) /\ told c T' k' d' /\ settled k'
  /\ exists new, k_out k' = new ++ k_out k /\ Forall ending new /\ (k_oneshot_to k = 0%Z -> new = []).
Proof.
  intros c n T k d k' d' T' Ht Hs H. revert Ht Hs. induction H as [k d T|n k d T fuel k1 d1 k2 d2 T2 Hd E H IH]; intros Ht Hs.
  - split; [lia|]. split; [exact Ht|]. split; [exact Hs|]. exists []. auto.
  - pose proof (told_less _ _ _ _ _ _ _ Ht Hs Hd E) as L. pose proof (told_next _ _ _ _ _ _ _ Ht Hd E) as Ht1.
    apply tick_settled in E as (Hs1 & _ & _ & [new [G1 [G2 G3]]]); [|exact Hs].
    destruct (IH Ht1 Hs1) as (A & B & C & [new2 [I1 [I2 I3]]]). split; [lia|]. split; [exact B|]. split; [exact C|].
    exists (new2 ++ new). rewrite I1, G1, app_assoc. split; [reflexivity|]. split; [now apply Forall_app|].
    intros X. destruct (G3 X) as [-> Y]. now rewrite (I3 Y).
Qed.
(* It gets there: after some of these calls it asks for no more, unless one of them aborts
   the daemon as C05 describes (a layer deactivated more often than activated). *)
Theorem C87_rests : forall c T k d, told c T k d -> settled k -> nlayers k <= MAX_LAYERS ->
  exists n k' d' T', ticks n k d T k' d' T'
    /\ (d' = 0%Z \/ forall fuel, process_event (S fuel) k' 0%N false (T' + d')%Z = Crash CLayerInactive).
Proof.
  intros c T k d. remember (length (k_timeouts k)) as m eqn:Em. revert T k d Em. induction m as [m IH] using lt_wf_ind.
  intros T k d Em Ht Hs Hl. destruct (Z.eq_dec d 0) as [->|Hd].
  { exists 0, k, 0%Z, T. split; [constructor|now left]. }
  assert (P : (0 < d)%Z).
  { apply told_timeline in Ht as (_ & Hf & [[_ X]|(x & Hx & -> & _)]); [congruence|]. apply Hf in Hx. lia. }
  destruct (expire_total (chord_seen k 0 false (T + d)) (T + d)%Z Hl) as [[k1 E]|E].
  - assert (E1 : process_event 1 k 0%N false (T + d)%Z = Ok (calculate_main_loop_timeout k1 (T + d)%Z)).
    { rewrite tick_eq by apply Hs. rewrite rest_settled by apply Hs. now rewrite E. }
    destruct (calculate_main_loop_timeout k1 (T + d)%Z) as [k2 d2] eqn:E2.
    pose proof (told_less _ _ _ _ _ _ _ Ht Hs P E1) as L. pose proof (told_next _ _ _ _ _ _ _ Ht P E1) as Ht1.
    pose proof E1 as E3. apply tick_settled in E3 as (Hs1 & _ & Hc & _); [|exact Hs].
    assert (Hl2 : nlayers k2 <= MAX_LAYERS) by (unfold nlayers in *; now rewrite Hc).
    destruct (IH (length (k_timeouts k2)) ltac:(lia) _ _ _ eq_refl Ht1 Hs1 Hl2) as (n & k' & d' & T' & A & B).
    exists (S n), k', d', T'. split; [|exact B]. eapply tk_call; eauto.
  - exists 0, k, d, T. split; [constructor|]. right. intros fuel. rewrite tick_eq by apply Hs. rewrite rest_settled by apply Hs. now rewrite E.
Qed.
(* It does get there if every waiting oneshot is one of the activations of its layer. *)
Definition backed (k : kbd) : Prop := forall i, is_layer k i -> (oneshots k i <= l_active (k_ls k i))%N.
Lemma drop_goes i n : i < MAX_LAYERS -> forall k, n <= N.to_nat (l_active (k_ls k i)) -> exists k', drop_oneshots n k i = Ok k'.
Proof.
  intros Hi. induction n as [|n IH]; intros k Hn; cbn [drop_oneshots]; [eauto|].
  unfold deactivate_layer, chk_layer. replace (Nat.ltb i MAX_LAYERS) with true by (symmetry; now apply Nat.ltb_lt). cbn [bind].
  destruct (N.eqb_spec (l_active (k_ls k i)) 0) as [E|E]; [rewrite E in Hn; cbn in Hn; lia|]. cbn [bind]. apply IH.
  unfold emit, set_lsi. cbn [k_ls set_k_out set_k_ls]. rewrite !nupd_same. cbn [l_active set_l_depth set_l_active]. lia.
Qed.
Lemma clear_goes l : NoDup l -> forall k, (forall i, In i l -> i < MAX_LAYERS /\ (oneshots k i <= l_active (k_ls k i))%N) ->
  exists k', clear_oneshot_layers l k = Ok k'.
Proof.
  induction 1 as [|i l Hni Hn IH]; intros k H; cbn [clear_oneshot_layers]; [eauto|].
  destruct (H i (or_introl eq_refl)) as [H1 H2].
  destruct (drop_goes i (N.to_nat (l_depth (k_ls k i))) H1 k) as [k1 E]; [unfold oneshots in H2; lia|]. rewrite E. cbn [bind]. apply IH.
  apply drop_oneshots_ok in E as [ls1 [n1 [-> [_ [A2 _]]]]]. intros j Hj. destruct (H j (or_intror Hj)) as [H3 H4]. split; [exact H3|].
  assert (j <> i) by congruence. unfold oneshots in *. cbn [k_ls lsn set_k_out set_k_ls]. rewrite A2 by auto. exact H4.
Qed.
Lemma expire_goes k t : nlayers k <= MAX_LAYERS -> backed k -> exists k1, expire_oneshot k t = Ok k1 /\ backed k1.
Proof.
  intros Hl Hb. unfold expire_oneshot. destruct (_ && _); [|eauto].
  destruct (clear_goes (seq 0 (nlayers k)) (seq_NoDup _ _) k) as [k1 E].
  { intros i Hi. apply in_seq in Hi. split; [lia|]. apply Hb. unfold is_layer. unfold nlayers in Hi. lia. }
  assert (E1 : clear_oneshot k = Ok (set_k_oneshot_to 0%Z (set_k_latch false k1))) by (unfold clear_oneshot; now rewrite E).
  rewrite E1. cbn [bind]. eexists. split; [reflexivity|].
  pose proof (clear_oneshot_cfg _ _ E1) as Hc. apply clear_oneshot_ended in E1 as (_ & _ & X).
  intros i Hi. unfold is_layer in Hi. rewrite update_mods_cfg in Hi.
  destruct (X i) as [Y _]; [unfold is_layer; rewrite Hc in Hi; exact Hi|].
  match goal with |- context [update_mods ?a ?b ?c ?e] => destruct (update_mods_only a b c e) as [l1 [s1 [o1 ->]]] end.
  unfold oneshots in *. norm_states. kcbn. cbn [k_ls set_k_oneshot_to set_k_latch] in Y. rewrite Y. lia.
Qed.
Theorem C87_comes : forall c T k d, told c T k d -> settled k -> nlayers k <= MAX_LAYERS -> backed k ->
  exists n k' T', ticks n k d T k' 0%Z T'.
Proof.
  intros c T k d Ht Hs Hl Hb. destruct (C87_rests c T k d Ht Hs Hl) as (n & k' & d' & T' & A & B).
  assert (X : settled k' /\ nlayers k' <= MAX_LAYERS /\ backed k').
  { clear B. induction A as [k d T|n k d T fuel k1 d1 k2 d2 T2 Hd E H IH]; [auto|].
    pose proof (tick_settled _ _ _ _ _ Hs E) as (Hs1 & _ & Hc & _). apply IH.
    - eapply told_next; eauto.
    - exact Hs1.
    - unfold nlayers in *. now rewrite Hc.
    - destruct fuel as [|fuel]; [discriminate|]. rewrite tick_eq in E by apply Hs. rewrite rest_settled in E by apply Hs.
      destruct (expire_goes (chord_seen k 0 false (T + d)) (T + d)%Z Hl Hb) as (k3 & E3 & B3). rewrite E3 in E. cbn [bind] in E.
      apply Ok_inj in E. unfold calculate_main_loop_timeout in E. apply pair_equal_spec in E as [<- _]. exact B3. }
  destruct X as (X1 & X2 & X3). destruct B as [->|B]; [eauto|]. exfalso. specialize (B 0).
  rewrite tick_eq in B by apply X1. rewrite rest_settled in B by apply X1.
  destruct (expire_goes (chord_seen k' 0 false (T' + d')) (T' + d')%Z X2 X3) as (k3 & E3 & _). rewrite E3 in B. discriminate B.
Qed.
(* ... which is so after every history of the configurations of C26, while fewer than 256
   activations of a layer are outstanding. *)
Theorem C87_accounted : forall G K text c T k d, config_parse text = Ok (Some c) -> reach (tame G K) c k -> told c T k d -> settled k ->
  (forall i, is_layer k i -> layout (k_cfg k) i -> oneshots k i = 0%N) ->
  (forall i, is_layer k i -> ~ layout (k_cfg k) i -> (outstanding k i < 256)%N) ->
  exists n k' T', ticks n k d T k' 0%Z T'.
Proof.
  intros G K text c T k d Hc Hr Ht Hs Hy Ho. apply (C87_comes c); auto.
  - destruct (reach_inv_cfg _ _ _ (config_parse_inv _ _ Hc) Hr) as [[W _] _]. exact (wf_layers_max _ W).
  - intros i Hi. destruct (layout_dec (k_cfg k) i) as [L|L]; [rewrite Hy by auto; lia|].
    change (l_active (k_ls k i)) with (count k i). rewrite (C26_count G K c k i Hr L), N.mod_small by (apply Ho; auto). unfold outstanding. lia.
Qed.
(* Once no oneshot is left either, a call changes nothing, whenever it comes. *)
Theorem C87_silent : forall f k t k1 d1, settled k -> k_oneshot_to k = 0%Z -> process_event f k 0%N false t = Ok (k1, d1) ->
  k_out k1 = k_out k /\ k_ls k1 = k_ls k /\ k_ks k1 = k_ks k /\ k_cache k1 = k_cache k /\ k_cfg k1 = k_cfg k
  /\ settled k1 /\ k_oneshot_to k1 = 0%Z /\ (k_timeouts k = [] -> k_timeouts k1 = [] /\ d1 = 0%Z).
Proof.
  intros f k t k1 d1 Hs Ho H. pose proof (tick_settled _ _ _ _ _ Hs H) as (Hs1 & _ & _).
  destruct f as [|f]; [discriminate|]. rewrite tick_eq in H by apply Hs. rewrite rest_settled in H by apply Hs. bstep H k2 E. apply Ok_inj in H.
  apply expire_ends in E as (_ & _ & _ & _ & _ & _ & Z0). specialize (Z0 Ho). subst k2.
  unfold calculate_main_loop_timeout in H. apply pair_equal_spec in H as [<- <-].
  repeat (split; [reflexivity|]). split; [exact Hs1|]. split; [exact Ho|]. intros X.
  cbn [k_timeouts set_k_timeouts chord_seen set_k_chord]. rewrite X. now split.
Qed.

(* ---- a macro that repeats although no key is held ------------------------------------------------ *)
Definition presses_of (c : N) (o : list oev) : nat :=
  length (filter (fun e => match e with OKey c' true => (c' =? c)%N | _ => false end) o).
Lemma presses_of_app c a b : presses_of c (a ++ b) = presses_of c a + presses_of c b.
Proof. unfold presses_of. rewrite filter_app, app_length. reflexivity. Qed.
Definition repeating (mm : macro) (r : Z) (k : kbd) (d T : Z) : Prop :=
  idle k /\ k_oneshot_to k = 0%Z /\ (exists m, k_amacro k = Some m /\ macro_at k m = Ok mm)
  /\ k_macro_to k = (T + d)%Z /\ k_timeouts k = [(T + d)%Z] /\ k_repeat k = r /\ (0 < d)%Z.
Lemma repeats_on mm r k d T : multi_step mm -> (0 < r)%Z -> (0 < T)%Z -> repeating mm r k d T ->
  exists k1, process_event 1 k 0%N false (T + d)%Z = Ok (k1, r) /\ repeating mm r k1 r (T + d)
    /\ k_cfg k1 = k_cfg k /\ exists pre, k_out k1 = rev (macro_execute mm (c_macro_seq_timeout (k_cfg k))) ++ pre ++ k_out k.
Proof.
  intros Hmm Hr HT (Hi & Ho & (m & Ha & Hm) & Ht & Htt & Hrr & Hd).
  assert (E : exists k1, process_event 1 k 0%N false (T + d)%Z = Ok (k1, r) /\ k_timeouts k1 = [(T + d + r)%Z] /\ k_cfg k1 = k_cfg k).
  { rewrite tick_eq by exact Hi. unfold rest_step, expire_oneshot. cbn [k_oneshot_to chord_seen set_k_chord]. rewrite Ho. cbn [Z.eqb negb andb bind].
    unfold run_active_macro. cbn [k_amacro chord_seen set_k_chord k_macro_to]. rewrite Ha, Ht. cbn [N.eqb negb].
    destruct (Z.leb_spec (T + d) (T + d)); [|lia].
    change (macro_at (chord_seen k 0 false (T + d)) m) with (macro_at k m). rewrite Hm. cbn [bind]. cbv zeta.
    match goal with |- context [execute_macro ?x ?y ?z] => destruct (execute_macro_only x y z) as [l1 [s1 [o1 Ex]]] end. rewrite Ex.
    unfold schedule_timeout. kcbn. cbn [chord_seen set_k_chord k_timeouts k_repeat]. rewrite Htt, Hrr. cbn [length Nat.ltb Nat.leb MAX_TIMEOUTS bind handle_key N.eqb].
    eexists. split; [|split].
    - unfold calculate_main_loop_timeout. kcbn. cbn [app filter].
      destruct (Z.ltb_spec (T + d) (T + d)); [lia|]. destruct (Z.ltb_spec (T + d) (T + d + r)); [|lia].
      cbn [min_timeout fold_left Z.eqb orb]. destruct (Z.eqb_spec (T + d + r) 0); [lia|]. cbn [handle_key N.eqb bind]. f_equal. f_equal. lia.
    - reflexivity.
    - reflexivity. }
  destruct E as (k1 & E & Et & Hcfg). exists k1. split; [exact E|].
  pose proof (C28_repeats 1 k (T + d)%Z k1 r m Hi (or_introl Ho) Ha ltac:(lia) E) as ([q Q] & A & _ & B & C & _).
  pose proof (tick_idle _ _ _ _ _ Hi E) as (I1 & I2 & _).
  split.
  - split; [exact I1|]. split; [rewrite I2; auto|]. split; [|rewrite B, C, Hrr; auto].
    exists m. split; [exact A|]. unfold macro_at in *. now rewrite Hcfg.
  - split; [exact Hcfg|]. rewrite Q. apply macro_at_no in Hm. rewrite <- Hm. destruct (C27_engine (set_k_chord q k) (k_amacro_layer k) mm Hmm) as [pre [X _]]. exists pre. exact X.
Qed.
Theorem C87_repeats : forall mm r c x k d T n, multi_step mm -> (0 < r)%Z -> (0 < T)%Z -> k_cfg k = c -> repeating mm r k d T ->
  (1 <= presses_of x (rev (macro_execute mm (c_macro_seq_timeout c)))) ->
  exists k' d' T', ticks n k d T k' d' T' /\ (0 < d')%Z /\ n + presses_of x (k_out k) <= presses_of x (k_out k').
Proof.
  intros mm r c x k d T n Hmm Hr. revert k d T. induction n as [|n IH]; intros k d T HT Hc Hk Hp.
  - exists k, d, T. split; [constructor|]. split; [apply Hk|lia].
  - destruct (repeats_on mm r k d T Hmm Hr HT Hk) as (k1 & E & Hk1 & Hcfg & pre & Ho).
    assert (Hd : (0 < d)%Z) by apply Hk.
    destruct (IH k1 r (T + d)%Z) as (k' & d' & T' & A & B & C); [lia| |exact Hk1|exact Hp|].
    { now rewrite Hcfg. }
    exists k', d', T'. split; [eapply tk_call; eauto|]. split; [exact B|]. rewrite Ho, !presses_of_app in C. rewrite Hc in C. lia.
Qed.
Definition repeatb (x : N) (r : Z) (k : kbd) (d T : Z) : bool :=
  idleb k && (k_oneshot_to k =? 0)%Z
  && match k_amacro k with
     | Some m => match macro_at k m with
                 | Ok (e1 :: e2 :: m') => 1 <=? presses_of x (rev (macro_execute (e1 :: e2 :: m') (c_macro_seq_timeout (k_cfg k))))
                 | _ => false
                 end
     | None => false
     end
  && (k_macro_to k =? T + d)%Z && match k_timeouts k with [x] => (x =? T + d)%Z | _ => false end && (k_repeat k =? r)%Z && (0 <? d)%Z.
Lemma repeatb_ok x r k d T : repeatb x r k d T = true ->
  exists mm, multi_step mm /\ repeating mm r k d T /\ 1 <= presses_of x (rev (macro_execute mm (c_macro_seq_timeout (k_cfg k)))).
Proof.
  unfold repeatb. rewrite !andb_true_iff. intros [[[[[[H1 H2] H3] H4] H5] H6] H7].
  destruct (k_amacro k) as [m|] eqn:Em; [|discriminate]. destruct (macro_at k m) as [[|e1 [|e2 m']]| | |] eqn:Ea; try discriminate.
  exists (e1 :: e2 :: m'). split; [intros [data X]; discriminate X|]. split; [|now apply Nat.leb_le].
  split; [now apply idleb_ok|]. split; [now apply Z.eqb_eq|]. split; [exists m; auto|]. split; [now apply Z.eqb_eq|].
  split; [|split; [now apply Z.eqb_eq|now apply Z.ltb_lt]].
  destruct (k_timeouts k) as [|y [|z l]]; try discriminate. apply Z.eqb_eq in H5. now subst y.
Qed.
Definition ex87_text : str := bs "[main]
a = overload(nav, macro2(300, 50, macro(x y)))
[nav]
b = left
".
Definition ex87 : config := cfg_of ex87_text.
Definition none_heldb (k : kbd) : bool := forallb (fun e => (ce_code e =? 0)%N) (k_cache k).
Lemma none_heldb_ok k : none_heldb k = true -> none_held k.
Proof. intros H e He. apply N.eqb_eq. exact (proj1 (forallb_forall _ _) H e He). Qed.
(* The action of overload() is pressed and released on the release of the key.  A macro2()
   there starts repeating with no key held: x is typed for ever. *)
Theorem C87_macro_refuted : config_parse ex87_text = Ok (Some ex87)
  /\ exists T k d, told ex87 T k d /\ none_held k /\ idle k
    /\ forall n, exists k' d' T', ticks n k d T k' d' T' /\ (0 < d')%Z /\ n <= presses_of 45 (k_out k').
Proof.
  split; [apply parsesb_ok; vm_compute; reflexivity|].
  assert (H : told_so ex87 [[D 30 10; U 30 20]]%N 20 300 (fun k => none_heldb k && repeatb 45 50 k 300 20) = true) by (vm_compute; reflexivity).
  apply told_so_ok in H as [k [A B]]. apply andb_true_iff in B as [B1 B2]. apply repeatb_ok in B2 as (mm & M1 & M2 & M3).
  exists 20%Z, k, 300%Z. split; [exact A|]. split; [now apply none_heldb_ok|]. split; [apply M2|]. intros n.
  destruct (C87_repeats mm 50%Z (k_cfg k) 45%N k 300%Z 20%Z n M1 ltac:(lia) ltac:(lia) eq_refl M2 M3) as (k' & d' & T' & X & Y & W).
  exists k', d', T'. split; [exact X|]. split; [exact Y|lia].
Qed.

(* ---- a keyboard that has something left to do ---------------------------------------------- *)
Definition settledb (k : kbd) : bool := idleb k && match k_amacro k with None => true | Some _ => false end.
Lemma settledb_ok k : settledb k = true -> settled k.
Proof. intros H. apply andb_true_iff in H as [H1 H2]. split; [now apply idleb_ok|]. now destruct (k_amacro k). Qed.
(* A oneshot layer waiting for its timeout: 100 ms later one call ends it, and that is all. *)
Example C87_example : exists k, told ex24 30 k 100 /\ settled k /\ nlayers k <= MAX_LAYERS /\ length (k_timeouts k) = 1
  /\ k_oneshot_to k = 130%Z /\ exists k', ticks 1 k 100 30 k' 0 130 /\ k_out k' <> k_out k.
Proof.
  assert (H : told_so ex24 [[D 46 10; U 46 30]]%N 30 100 (fun k => settledb k && (nlayers k <=? MAX_LAYERS) && (length (k_timeouts k) =? 1) && (k_oneshot_to k =? 130)%Z
      && match process_event 1 k 0%N false 130%Z with Ok (k', d) => (d =? 0)%Z && (length (k_out k) <? length (k_out k')) | _ => false end) = true) by (vm_compute; reflexivity).
  apply told_so_ok in H as [k [A B]]. rewrite !andb_true_iff in B. destruct B as [[[[B1 B2] B3] B4] B5]. exists k. split; [exact A|].
  split; [now apply settledb_ok|]. split; [now apply Nat.leb_le|]. split; [now apply Nat.eqb_eq|]. split; [now apply Z.eqb_eq|].
  destruct (process_event 1 k 0%N false 130%Z) as [[k' d]| | |] eqn:E; try discriminate. apply andb_true_iff in B5 as [C1 C2]. apply Z.eqb_eq in C1. subst d.
  exists k'. split; [eapply tk_call; [|exact E|constructor]; lia|]. apply Nat.ltb_lt in C2. intros X. rewrite X in C2. lia.
Qed.

(* ... and its history is one of those of C87_accounted. *)
Definition ex87b_text : str := bs "[global]
oneshot_timeout = 100
[main]
c = oneshot(nav)
l = layer(nav)
[nav]
b = left
".
Definition ex87b : config := cfg_of ex87b_text.
Definition after_evs (c : config) (evs : list kev) (f : kbd -> Z -> bool) : bool :=
  match kbd_process_events 30 (new_keyboard c 1) evs with Ok (k, d) => f k d | _ => false end.
Lemma after_evs_ok c evs T f : evs <> [] -> ordered 0 evs T -> after_evs c evs f = true -> exists k d, run_to c k /\ told c T k d /\ f k d = true.
Proof.
  unfold after_evs. intros Hn Ho. destruct (kbd_process_events 30 (new_keyboard c 1) evs) as [[k d]| | |] eqn:E; try discriminate. intros H.
  exists k, d. split; [eapply run_events; [|exact E]; constructor; lia|]. split; [|exact H].
  exists 0%Z, (new_keyboard c 1), 30, evs. split; [constructor; lia|]. auto.
Qed.
Lemma ex87b_parses : config_parse ex87b_text = Ok (Some ex87b).
Proof. apply parsesb_ok. vm_compute. reflexivity. Qed.
Lemma ex87b_tame : tame (nested_of ex87b) (layouts_of ex87b) ex87b.
Proof. apply tameb_ok; [apply (config_parse_inv _ _ ex87b_parses)|]. vm_compute. reflexivity. Qed.
Lemma fresh_layers k (P : nat -> bool) : nlayers k <= 8 -> forallb P (seq 0 8) = true -> forall i, is_layer k i -> P i = true.
Proof. intros H F i Hi. rewrite forallb_forall in F. apply F. apply in_seq. unfold is_layer in Hi. unfold nlayers in H. lia. Qed.
Example C87_accounted_example : exists k d, reach (tame (nested_of ex87b) (layouts_of ex87b)) ex87b k /\ told ex87b 50 k d /\ settled k /\ d = 80%Z
  /\ (forall i, is_layer k i -> layout (k_cfg k) i -> oneshots k i = 0%N) /\ (forall i, is_layer k i -> ~ layout (k_cfg k) i -> (outstanding k i < 256)%N)
  /\ oneshots k 6 = 1%N /\ outstanding k 6 = 2%N.
Proof.
  destruct (after_evs_ok ex87b [D 46 10; U 46 30; D 38 50]%N 50
    (fun k d => settledb k && (d =? 80)%Z && (nlayers k <=? 8) && forallb (fun i => (if layouts_of (k_cfg k) i then (oneshots k i =? 0)%N else true) && (outstanding k i <? 256)%N) (seq 0 8)
      && (oneshots k 6 =? 1)%N && (outstanding k 6 =? 2)%N)) as (k & d & H1 & H2 & H3).
  { discriminate. } { repeat constructor; cbn; lia. } { vm_compute. reflexivity. }
  rewrite !andb_true_iff in H3. destruct H3 as [[[[[A B] C] E] F] G]. apply Nat.leb_le in C. exists k, d.
  split; [apply run_to_reach; [apply ex87b_tame|exact H1]|]. split; [exact H2|]. split; [now apply settledb_ok|]. split; [now apply Z.eqb_eq|].
  pose proof (fresh_layers k _ C E) as X. cbv beta in X.
  split; [|split; [|split; now apply N.eqb_eq]].
  - intros i Hi L. specialize (X i Hi). apply andb_true_iff in X as [X _]. unfold layouts_of in X. unfold layout in L. rewrite L in X. now apply N.eqb_eq in X.
  - intros i Hi _. specialize (X i Hi). apply andb_true_iff in X as [_ X]. now apply N.ltb_lt.
Qed.

Definition C87_all := (C87_bounded, C87_rests, C87_comes, C87_accounted, C87_accounted_example, C87_silent, C87_repeats, C87_macro_refuted, C87_example).
Print Assumptions C87_all.
