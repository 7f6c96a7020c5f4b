(* Moving every event by the same number of milliseconds moves every point in time
   kept in the state, and nothing else. *)
From Verif Require Import Base Lib Keys Types MacroExec Kbd Config Engine ModsProofs ActProofs OneProofs CacheProofs Inv ClassInv
  TermProofs Times Retime.

Definition rel {A A'} (f : A -> A') (I : A -> Prop) (r' : res A') (r : res A) : Prop :=
  r' = mapr f r /\ forall a, r = Ok a -> I a.
Lemma rel_bind {A A' B B'} (f : A -> A') I (g : B -> B') J e' e h' h :
  rel f I e' e -> (forall a, e = Ok a -> I a -> rel g J (h' (f a)) (h a)) -> rel g J (bind e' h') (bind e h).
Proof.
  intros [-> H1] H2. destruct e as [a| | |]; cbn [bind mapr]; try (split; [reflexivity|discriminate]). apply H2; auto.
Qed.
Lemma rel_Ok {A A'} (f : A -> A') (I : A -> Prop) a : I a -> rel f I (Ok (f a)) (Ok a).
Proof. intros H. split; [reflexivity|]. intros b Hb. apply Ok_inj in Hb. now subst. Qed.

Section Shift.
Variable d : Z.
Definition pos (x : Z) : Prop := (0 < x)%Z /\ (0 < x + d)%Z.
Definition fz (x : Z) : Z := if (x =? 0)%Z then 0%Z else (x + d)%Z.
Definition mv (e : kev) : kev := mkKev (ev_code e) (ev_pressed e) (fz (ev_time e)).
Definition fpend (p : pend) : pend :=
  mkPend (p_code p) (p_dl p) (fz (p_expire p)) (p_beh p) (map mv (p_queue p)) (p_a1 p) (p_a2 p).
Definition fchord (h : chst) : chst :=
  mkCh (map mv (h_queue h)) (h_match h) (h_mlayer h) (fz (h_last h)) (h_state h).
Definition R : kbd -> kbd := re fpend fchord fz.

Lemma fz_0 : fz 0 = 0%Z. Proof. reflexivity. Qed.
Lemma fz_pos x : pos x -> fz x = (x + d)%Z.
Proof. unfold pos, fz. destruct (Z.eqb_spec x 0); lia. Qed.
Lemma pos_add t x : pos t -> (0 <= x)%Z -> pos (t + x).
Proof. unfold pos. lia. Qed.
Lemma fz_add t x : pos t -> (0 <= x)%Z -> fz (t + x) = (fz t + x)%Z.
Proof. intros H1 H2. rewrite !fz_pos; auto; [lia|now apply pos_add]. Qed.
Lemma fz_le a b : pos a -> pos b -> (fz a <=? fz b)%Z = (a <=? b)%Z.
Proof. intros H1 H2. rewrite !fz_pos by auto. destruct (Z.leb_spec a b), (Z.leb_spec (a + d) (b + d)); lia. Qed.
Lemma fz_lt a b : pos a -> pos b -> (fz a <? fz b)%Z = (a <? b)%Z.
Proof. intros H1 H2. rewrite !fz_pos by auto. destruct (Z.ltb_spec a b), (Z.ltb_spec (a + d) (b + d)); lia. Qed.
Lemma fz_sub a b : pos a -> pos b -> (fz a - fz b = a - b)%Z.
Proof. intros H1 H2. rewrite !fz_pos by auto. lia. Qed.

Definition livek : kbd -> Prop := livet pos.
Definition step_ok (c : config) (time : Z) (x : desc) : Prop := calm x /\ calm_cfg c /\ pos time.
Lemma step_in c time x : step_ok c time x -> in_step fpend fz c time x.
Proof.
  intros [H1 [[_ [G1 [G2 [G3 _]]]] H3]]. destruct x; cbn [in_step calm] in *; unfold on_time; auto using fz_add.
  all: try (split; [now apply fz_add|reflexivity]). all: try contradiction.
  destruct H1. now apply fz_add.
Qed.
Lemma step_nested c time l a : step_ok c time (DOverload l a) -> step_ok c time (nth a (c_descs c) DNone).
Proof.
  intros [H1 [H2 H3]]. split; [|auto]. destruct H2 as [[_ [_ H2]] _].
  destruct (nth_in_or_default a (c_descs c) DNone) as [H|H]; [auto|rewrite H; exact Logic.I].
Qed.
Lemma step_idle c time a b t : step_ok c time (DOverloadI a b t) ->
  step_ok c time (nth a (c_descs c) DNone) /\ step_ok c time (nth b (c_descs c) DNone).
Proof. intros [[] _]. Qed.
Lemma R_do k code x dl (pressed : bool) time : calm_cfg (k_cfg k) -> calm x -> pos time ->
  (pressed = false -> is_over x = true -> pos (k_ovl_start k)) ->
  do_desc (R k) code x dl pressed (fz time) = mapr R (do_desc k code x dl pressed time).
Proof.
  intros L C Ht Ho. apply (re_do fpend fchord fz fz_0 step_ok step_in step_nested step_idle).
  - split; [exact C|]. split; [exact L|exact Ht].
  - intros E l a ->. apply fz_sub; auto.
Qed.
(* ---- how the state is read and written --------------------------------------------- *)
Lemma R_cfg k : k_cfg (R k) = k_cfg k. Proof. reflexivity. Qed.
Lemma R_pend k : k_pend (R k) = fpend (k_pend k). Proof. reflexivity. Qed.
Lemma R_chord k : k_chord (R k) = fchord (k_chord k). Proof. reflexivity. Qed.
Lemma R_achords k : k_achords (R k) = k_achords k. Proof. reflexivity. Qed.
Lemma R_amacro k : k_amacro (R k) = k_amacro k. Proof. reflexivity. Qed.
Lemma R_alayer k : k_amacro_layer (R k) = k_amacro_layer k. Proof. reflexivity. Qed.
Lemma R_mto k : k_macro_to (R k) = fz (k_macro_to k). Proof. reflexivity. Qed.
Lemma R_repeat k : k_repeat (R k) = k_repeat k. Proof. reflexivity. Qed.
Lemma R_oto k : k_oneshot_to (R k) = fz (k_oneshot_to k). Proof. reflexivity. Qed.
Lemma R_timeouts k : k_timeouts (R k) = map fz (k_timeouts k). Proof. reflexivity. Qed.
Lemma R_set_pend p k : set_k_pend (fpend p) (R k) = R (set_k_pend p k). Proof. reflexivity. Qed.
Lemma R_set_chord h k : set_k_chord (fchord h) (R k) = R (set_k_chord h k). Proof. reflexivity. Qed.
Lemma R_set_achords x k : set_k_achords x (R k) = R (set_k_achords x k). Proof. reflexivity. Qed.
Lemma R_set_amacro x k : set_k_amacro x (R k) = R (set_k_amacro x k). Proof. reflexivity. Qed.
Lemma R_set_mto t k : set_k_macro_to (fz t) (R k) = R (set_k_macro_to t k). Proof. reflexivity. Qed.
Lemma R_set_timeouts l k : set_k_timeouts (map fz l) (R k) = R (set_k_timeouts l k). Proof. reflexivity. Qed.
Lemma R_set_cstate s k : set_cstate s (R k) = R (set_cstate s k). Proof. reflexivity. Qed.
Lemma R_deref k p : deref_match (R k) p = deref_match k p. Proof. reflexivity. Qed.
Lemma R_macro_at k m : macro_at (R k) m = macro_at k m. Proof. reflexivity. Qed.
Lemma R_cache_get k c : cache_get (R k) c = cache_get k c. Proof. reflexivity. Qed.
Lemma R_cache_nth k i : cache_nth (R k) i = cache_nth k i. Proof. reflexivity. Qed.
Lemma R_lookup k c : lookup_descriptor (R k) c = lookup_descriptor k c. Proof. reflexivity. Qed.
Lemma R_cache_set k c e : cache_set (R k) c e = option_map R (cache_set k c e).
Proof. unfold cache_set. change (k_cache (R k)) with (k_cache k). destruct (cache_slot _ _ _ _); [|reflexivity]. destruct e; reflexivity. Qed.
Lemma R_update inh k e m : update_mods inh (R k) e m = R (update_mods inh k e m). Proof. apply re_update. Qed.
Lemma R_execute k l m : execute_macro (R k) l m = R (execute_macro k l m). Proof. apply re_macro. Qed.
Lemma R_clear_oneshot k : clear_oneshot (R k) = mapr R (clear_oneshot k). Proof. apply re_clear_oneshot, fz_0. Qed.
Lemma R_schedule k t : schedule_timeout (R k) (fz t) = mapr R (schedule_timeout k t). Proof. apply re_schedule. Qed.
Lemma presses_mv keys : forall evs n, chord_presses keys (map mv evs) n = chord_presses keys evs n.
Proof. induction evs as [|e r IH]; intros n; cbn [map chord_presses mv ev_pressed ev_code]; [reflexivity|]. now rewrite !IH. Qed.
Lemma match_mv ch evs : chord_event_match ch (map mv evs) = chord_event_match ch evs.
Proof. unfold chord_event_match. now rewrite presses_mv. Qed.
Lemma fold_ext {A B} (f g : A -> B -> A) : (forall a b, f a b = g a b) -> forall l a, fold_left f l a = fold_left g l a.
Proof. intros H. induction l as [|b l IH]; intros a; cbn [fold_left]; [reflexivity|]. rewrite H. apply IH. Qed.
Lemma R_check_layer k acc li : check_layer1 (R k) acc li = check_layer1 k acc li.
Proof.
  unfold check_layer1. rewrite R_chord. cbn [fchord h_queue].
  change (is_active (R k) li) with (is_active k li). destruct (is_active k li); [|reflexivity].
  change (layer_at (R k) li) with (layer_at k li). change (k_ls (R k)) with (k_ls k). apply fold_ext.
  intros [[b m] p] [ci ch]. unfold check_chord1. now rewrite match_mv.
Qed.
Lemma R_check k : check_chord_match (R k) = (fst (check_chord_match k), R (snd (check_chord_match k))).
Proof.
  unfold check_chord_match. rewrite (fold_ext _ _ (R_check_layer k)). change (nlayers (R k)) with (nlayers k).
  destruct (fold_left (check_layer1 k) _ _) as [[[[li ci]|] mx] part]; reflexivity.
Qed.
Lemma R_enqueue k code pressed time :
  enqueue_chord_event (R k) code pressed (fz time) = mapr R (enqueue_chord_event k code pressed time).
Proof.
  unfold enqueue_chord_event. rewrite R_chord. cbn [fchord h_queue]. rewrite map_length.
  destruct (code =? 0)%N; [reflexivity|]. destruct (Nat.ltb _ _); [|reflexivity]. cbn [mapr]. f_equal.
  rewrite <- R_set_chord. f_equal. unfold fchord, set_h_queue. cbn [h_queue h_match h_mlayer h_last h_state]. f_equal. now rewrite map_app.
Qed.
Local Opaque R.

(* ---- the stages of process_event ----------------------------------------------------- *)
Lemma R_expire k time : livek k -> pos time ->
  rel R livek (expire_oneshot (R k) (fz time)) (expire_oneshot k time).
Proof.
  intros L Ht. split; [|intros a E; exact (expire_livet pos _ _ _ E L)].
  unfold expire_oneshot. rewrite R_oto.
  assert (X : negb (fz (k_oneshot_to k) =? 0)%Z && (fz (k_oneshot_to k) <=? fz time)%Z
            = negb (k_oneshot_to k =? 0)%Z && (k_oneshot_to k <=? time)%Z).
  { destruct L as [[[_ [_ [_ [L|L]]]] _] _]; [rewrite L; reflexivity|]. rewrite fz_le by auto. f_equal. f_equal.
    rewrite fz_pos by auto. destruct L. destruct (Z.eqb_spec (k_oneshot_to k + d) 0), (Z.eqb_spec (k_oneshot_to k) 0); lia. }
  rewrite X. destruct (negb (k_oneshot_to k =? 0)%Z && (k_oneshot_to k <=? time)%Z); [|reflexivity]. eapply mapr_bind; [apply R_clear_oneshot|].
  intros k1 _. cbn [mapr]. now rewrite R_update.
Qed.
Lemma R_run_macro k code time : livek k -> pos time ->
  rel R livek (run_active_macro (R k) code (fz time)) (run_active_macro k code time).
Proof.
  intros L Ht. split; [|intros a E; exact (run_macro_livet pos pos_add _ _ _ _ E Ht L)].
  destruct L as [[[_ [_ [L _]]] _] _].
  unfold run_active_macro. rewrite R_amacro. destruct (k_amacro k) as [m|]; [|reflexivity].
  destruct L as [L|[L1 L2]]; [discriminate|].
  destruct (negb _); [cbn [mapr]; now rewrite R_set_amacro, R_update|].
  rewrite R_mto, fz_le by auto. destruct (_ <=? _)%Z; [|reflexivity].
  rewrite R_macro_at. destruct (macro_at k m) as [mm| | |]; cbn [bind mapr]; auto. cbv zeta.
  rewrite R_alayer, R_execute, R_repeat.
  assert (E : k_repeat (execute_macro k (k_amacro_layer k) mm) = k_repeat k).
  { destruct (execute_macro_only k (k_amacro_layer k) mm) as [? [? [? ->]]]. reflexivity. }
  rewrite E, <- fz_add, R_set_mto by auto. apply R_schedule.
Qed.
Lemma R_key k code pressed time : livek k -> pos time ->
  rel R livek (handle_key (R k) code pressed (fz time)) (handle_key k code pressed time).
Proof.
  intros L Ht. split; [|intros a E; exact (handle_key_livet pos pos_add _ _ _ _ _ E Ht L)].
  unfold handle_key. destruct (code =? 0)%N; [reflexivity|]. pose proof L as [B O].
  pose proof B as [_ [_ [_ [_ [B5 _]]]]]. destruct pressed.
  - rewrite R_cache_get. destruct (cache_get k code); [reflexivity|]. rewrite R_lookup.
    destruct (lookup_descriptor k code) as [x dl] eqn:El. rewrite R_cache_set.
    destruct (cache_set k code _) as [k1|] eqn:E; [|reflexivity]. cbn [option_map].
    apply (lookup_alld calm) in El; [|apply calm_closed|exact B5].
    apply R_do; auto; [|discriminate]. apply (base_cfg pos). eapply cache_set_base; eauto. intros e [= <-]. exact El.
  - rewrite R_cache_get. destruct (cache_get k code) as [i|] eqn:Eg; [|reflexivity]. rewrite R_cache_nth, R_cache_set. cbv zeta.
    destruct (cache_set k code None) as [k1|] eqn:E; [|reflexivity]. cbn [option_map].
    assert (Hi : In (ce_d (cache_nth k i)) (map ce_d (k_cache k))).
    { apply in_map. apply nth_In. apply cache_find_at in Eg as [_ [Eg _]]. lia. }
    apply R_do; auto.
    + apply (base_cfg pos). eapply cache_set_base; eauto. intros e [=].
    + destruct B5 as [_ [B5 _]]. now apply B5.
    + intros _ Ho. apply cache_set_spec in E as [j [e [-> _]]]. cbn [k_ovl_start set_k_cache]. apply O.
      destruct (ce_d (cache_nth k i)) eqn:Ed; try discriminate. eexists. eexists. exact Hi.
Qed.
Lemma R_rest k code pressed time : livek k -> pos time ->
  rel R livek (rest_step (R k) code pressed (fz time)) (rest_step k code pressed time).
Proof.
  intros L Ht. unfold rest_step. eapply rel_bind; [now apply R_expire|]. intros k1 _ L1.
  eapply rel_bind; [now apply R_run_macro|]. intros k2 _ L2. now apply R_key.
Qed.

(* ---- the undecided key ---------------------------------------------------------------- *)
Definition mvpp (r : kbd * pplan) : kbd * pplan :=
  (R (fst r), match snd r with PReplay evs => PReplay (map mv evs) | x => x end).
Lemma R_decide k p a time : livek k -> calm a -> calm (p_a1 p) -> calm (p_a2 p) -> pos time ->
  decide (R k) (fpend p) a (fz time) = mapr R (decide k p a time).
Proof.
  intros L Ca C1 C2 Ht. unfold decide. cbv zeta.
  change (set_p_code 0 (set_p_queue [] (fpend p))) with (fpend (set_p_code 0 (set_p_queue [] p))).
  rewrite R_set_pend, R_cache_set. change (p_code (fpend p)) with (p_code p). change (p_dl (fpend p)) with (p_dl p).
  assert (L1 : livek (set_k_pend (set_p_code 0 (set_p_queue [] p)) k)) by (apply pend_livet; auto; constructor).
  set (k1 := set_k_pend _ _) in *. clearbody k1.
  destruct (cache_set k1 _ _) as [k2|] eqn:E; cbn [option_map]; apply R_do; auto; try discriminate; apply (base_cfg pos).
  - eapply cache_set_base; [exact E| |apply L1]. intros e [= <-]. exact Ca.
  - apply L1.
Qed.
Lemma exists_mv (f : N -> bool) q : existsb (fun e => f (ev_code e)) (map mv q) = existsb (fun e => f (ev_code e)) q.
Proof. induction q as [|e q IH]; cbn [map existsb mv ev_code]; [reflexivity|]. now rewrite IH. Qed.
Lemma R_action p code pressed time : (p_code p = 0%N \/ pos (p_expire p)) -> p_code p <> 0%N -> pos time ->
  pending_action (fpend p) code pressed (fz time) = pending_action p code pressed time.
Proof.
  intros [H|H] Hp Ht; [contradiction|]. unfold pending_action. cbn [fpend p_expire p_code p_a1 p_a2 p_beh p_queue].
  rewrite fz_le by auto. rewrite (exists_mv (fun c => c =? code)%N). reflexivity.
Qed.
Lemma R_pending k code pressed time : livek k -> pos time ->
  rel mvpp (fun r => livek (fst r) /\ Forall (evpos pos) (pplan_evs (snd r)))
    (pending_plan (R k) code pressed (fz time)) (pending_plan k code pressed time).
Proof.
  intros L Ht. split; [|intros [k1 pl] E; exact (pending_livet pos pos_add _ _ _ _ _ _ E Ht L)].
  unfold pending_plan. cbv zeta. rewrite R_pend. cbn [fpend p_code p_queue].
  destruct (N.eqb_spec (p_code (k_pend k)) 0) as [Ep|Ep]; [reflexivity|].
  rewrite map_length. destruct (_ && _); [reflexivity|]. rewrite (exists_mv (fun c => c =? code)%N).
  destruct (_ && _); [reflexivity|].
  set (p1 := if (code =? 0)%N then k_pend k else set_p_queue (p_queue (k_pend k) ++ [mkKev code pressed time]) (k_pend k)).
  assert (X : (p_code p1 = 0%N \/ pos (p_expire p1)) /\ p_code p1 <> 0%N /\ calm (p_a1 p1) /\ calm (p_a2 p1)).
  { destruct L as [[[_ [T _]] [_ [_ [_ [[_ [_ [_ B5]]] _]]]]] _]. subst p1. destruct (code =? 0)%N; auto. }
  match goal with |- (if has_op (pending_action ?x _ _ _) then _ else _) = _ =>
    replace x with (fpend p1) by (subst p1; destruct (code =? 0)%N; [reflexivity|]; unfold fpend, set_p_queue;
      cbn [p_code p_dl p_expire p_beh p_queue p_a1 p_a2]; rewrite map_app; reflexivity) end.
  destruct X as [X1 [X2 [X3 X4]]]. clearbody p1. rewrite R_action by auto.
  destruct (has_op _) eqn:Eo.
  - assert (Ca : calm (pending_action p1 code pressed time)) by (apply action_of in Eo as [->| ->]; auto).
    eapply mapr_bind; [now apply R_decide|]. intros k3 _. reflexivity.
  - now rewrite R_set_pend.
Qed.

(* ---- chords ------------------------------------------------------------------------------ *)
Definition mvp (r : kbd * cplan) : kbd * cplan :=
  (R (fst r), match snd r with PlanReplay press rest => PlanReplay press (option_map (map mv) rest) | x => x end).
Lemma R_resolve k : resolve_plan (R k) = mapr mvp (resolve_plan k).
Proof.
  unfold resolve_plan. cbv zeta. rewrite R_set_cstate, R_chord. cbn [fchord h_match h_queue h_mlayer]. set (k0 := set_cstate CsResolving k).
  destruct (h_match (k_chord k0)) as [p|]; [|reflexivity]. rewrite R_deref.
  destruct (deref_match k0 p) as [ch| | |]; cbn [bind mapr]; auto. rewrite R_achords.
  destruct (free_chord _ _) as [i|]; [|reflexivity]. rewrite R_set_achords, map_length. cbn [mapr]. unfold mvp. cbn [fst snd].
  destruct (Nat.ltb _ _); [reflexivity|]. cbn [option_map]. now rewrite skipn_map.
Qed.
Lemma R_abort k : abort_plan (R k) = mapr mvp (abort_plan k).
Proof.
  unfold abort_plan. rewrite R_chord. change (set_h_match None (fchord (k_chord k))) with (fchord (set_h_match None (k_chord k))).
  rewrite R_set_chord. apply R_resolve.
Qed.
Lemma R_matched k r time : calm_set (k_cfg k) -> pos time -> matched_plan (R k) r (fz time) = mapr mvp (matched_plan k r time).
Proof.
  intros [_ [_ [_ [C1 C2]]]] Ht. unfold matched_plan. cbv zeta. rewrite R_cfg, R_chord.
  change (set_h_last (fz time) (fchord (k_chord k))) with (fchord (set_h_last time (k_chord k))). rewrite R_set_chord, !R_set_cstate.
  rewrite <- !fz_add by auto.
  assert (G : forall k0 t, bind (schedule_timeout (R k0) (fz t)) (fun k2 => Ok (k2, PlanTaken))
              = mapr mvp (bind (schedule_timeout k0 t) (fun k2 => Ok (k2, PlanTaken)))).
  { intros k0 t. eapply mapr_bind; [apply R_schedule|]. reflexivity. }
  destruct r; try apply G. destruct (_ =? 0)%Z; [apply R_resolve|apply G].
Qed.
Lemma R_chord_up k code i : chord_up (R k) code i = (R (fst (chord_up k code i)), snd (chord_up k code i)).
Proof. unfold chord_up. cbv zeta. now rewrite R_achords, R_set_achords. Qed.
Lemma mvp_k k pl : (match pl with PlanReplay _ _ => False | _ => True end) -> Ok (R k, pl) = mapr mvp (Ok (k, pl)).
Proof. destruct pl; [reflexivity|reflexivity|reflexivity|intros []]. Qed.
Lemma R_chord_plan k code pressed time : livek k -> pos time ->
  chord_plan (R k) code pressed (fz time) = mapr mvp (chord_plan k code pressed time).
Proof.
  intros L Ht. destruct L as [[_ [_ [_ [Hh [_ C]]]]] _].
  unfold chord_plan. cbv zeta. rewrite R_achords.
  destruct (if negb (code =? 0)%N && negb pressed then chord_of_key (k_achords k) code 0 else None) as [i|].
  { rewrite R_chord_up. destruct (chord_up k code i) as [k1 b]. cbn [fst snd]. destruct b; reflexivity. }
  rewrite R_chord, R_cfg. cbn [fchord h_state h_match h_last].
  destruct (h_state (k_chord k)) eqn:Es.
  - reflexivity.
  - change (set_h_match None (set_h_queue [] (fchord (k_chord k)))) with (fchord (set_h_match None (set_h_queue [] (k_chord k)))).
    rewrite R_set_chord. eapply mapr_bind; [apply R_enqueue|]. intros k2 E2. rewrite R_check.
    destruct (check_chord_match k2) as [r k3] eqn:E3. cbn [fst snd].
    apply enqueue_same in E2 as [_ [A2 _]]. apply check_same in E3 as [_ [B2 _]].
    assert (C3 : calm_set (k_cfg k3)) by (now rewrite B2, A2).
    destruct r; [reflexivity|now apply R_matched..].
  - destruct Hh as [Hh|Hh]; [congruence|]. destruct (code =? 0)%N.
    + rewrite fz_sub by auto. destruct (_ <=? _)%Z; [|reflexivity].
      destruct (h_match (k_chord k)); [|apply R_abort].
      destruct (Z.ltb_spec 0 (c_chord_hold (k_cfg k) - c_chord_interkey (k_cfg k))) as [W|W]; [|apply R_resolve].
      rewrite <- fz_add by (auto; lia). eapply mapr_bind; [apply R_schedule|]. intros k2 _. now rewrite R_set_cstate.
    + eapply mapr_bind; [apply R_enqueue|]. intros k2 E2. apply enqueue_same in E2 as [_ [A2 _]].
      destruct (negb pressed); [apply R_abort|]. rewrite R_check.
      destruct (check_chord_match k2) as [r k3] eqn:E3. cbn [fst snd]. apply check_same in E3 as [_ [B2 _]].
      assert (C3 : calm_set (k_cfg k3)) by (now rewrite B2, A2).
      destruct r; [apply R_abort|now apply R_matched..].
  - destruct Hh as [Hh|Hh]; [congruence|]. destruct (code =? 0)%N.
    + rewrite fz_sub by auto. destruct (_ <=? _)%Z; [apply R_resolve|reflexivity].
    + eapply mapr_bind; [apply R_enqueue|]. intros k2 E2.
      destruct (negb pressed); [|reflexivity]. rewrite R_chord. cbn [fchord h_match].
      destruct (h_match (k_chord k2)) as [p|]; [|reflexivity]. rewrite R_deref.
      destruct (deref_match k2 p) as [ch| | |]; cbn [bind mapr]; auto. destruct (in_keys _ _); [apply R_abort|reflexivity].
Qed.

(* ---- the delay ---------------------------------------------------------------------------- *)
Lemma R_min : forall l b, Forall pos l -> b = 0%Z \/ pos b ->
  let f := fun best t => if (best =? 0)%Z || (t <? best)%Z then t else best in
  fold_left f (map fz l) (fz b) = fz (fold_left f l b) /\ (fold_left f l b = 0%Z \/ pos (fold_left f l b)).
Proof.
  intros l b Hl Hb f. revert b Hb. induction Hl as [|t l Ht Hl IH]; intros b Hb; cbn [map fold_left]; [auto|].
  assert (E : f (fz b) (fz t) = fz (f b t) /\ (f b t = 0%Z \/ pos (f b t))).
  { unfold f. destruct Hb as [->|Hb]; [cbn [Z.eqb orb fz]; auto|].
    rewrite fz_lt by auto. rewrite (fz_pos b) by auto. destruct Hb as [Hb1 Hb2].
    destruct (Z.eqb_spec (b + d) 0); [lia|]. destruct (Z.eqb_spec b 0); [lia|]. cbn [orb].
    destruct (t <? b)%Z; [auto|]. rewrite fz_pos by (split; auto). split; auto. right. split; auto. }
  destruct E as [-> E]. now apply IH.
Qed.
Lemma R_calc k time : livek k -> pos time ->
  rel (fun r => (R (fst r), snd r)) (fun r => livek (fst r) /\ (0 <= snd r)%Z)
    (Ok (calculate_main_loop_timeout (R k) (fz time))) (Ok (calculate_main_loop_timeout k time)).
Proof.
  intros L Ht. unfold calculate_main_loop_timeout, min_timeout. cbv zeta. rewrite R_timeouts.
  pose proof L as [[[T _] _] _].
  assert (E : filter (fun t => (fz time <? t)%Z) (map fz (k_timeouts k))
              = map fz (filter (fun t => (time <? t)%Z) (k_timeouts k))).
  { clear L. induction T as [|t l Hp Hl IH]; [reflexivity|]. cbn [map filter]. rewrite fz_lt by auto.
    destruct (time <? t)%Z; cbn [map]; now rewrite IH. }
  rewrite E, R_set_timeouts.
  pose proof (time_livet pos k (fun t => (time <? t)%Z) L) as L1.
  assert (T1 : Forall (fun t => pos t /\ (time < t)%Z) (filter (fun t => (time <? t)%Z) (k_timeouts k))).
  { rewrite Forall_forall in *. intros t Hi. apply filter_In in Hi as [H1 H2]. split; auto. lia. }
  set (lv := filter (fun t => (time <? t)%Z) (k_timeouts k)) in *. clearbody lv.
  assert (T2 : Forall pos lv) by (rewrite Forall_forall in *; intros t Hi; now apply T1).
  destruct (R_min lv 0 T2 (or_introl eq_refl)) as [M1 M2]. rewrite fz_0 in M1. rewrite M1.
  assert (M3 : fold_left (fun best t => if (best =? 0)%Z || (t <? best)%Z then t else best) lv 0%Z = 0%Z
             \/ (time < fold_left (fun best t => if (best =? 0)%Z || (t <? best)%Z then t else best) lv 0%Z)%Z).
  { clear -T1. assert (G : forall b, (b = 0 \/ time < b)%Z ->
      (fold_left (fun best t => if (best =? 0)%Z || (t <? best)%Z then t else best) lv b = 0
      \/ time < fold_left (fun best t => if (best =? 0)%Z || (t <? best)%Z then t else best) lv b)%Z); [|apply G; auto].
    induction T1 as [|t l [_ Hp] Hl IH]; intros b Hb; cbn [fold_left]; auto. apply IH. destruct (_ || _); auto. }
  set (m := fold_left _ lv 0%Z) in *. clearbody m.
  split.
  - cbn [mapr fst snd]. f_equal. f_equal. destruct M2 as [->|M2]; [reflexivity|]. rewrite fz_pos by auto. destruct M2.
    destruct (Z.eqb_spec (m + d) 0), (Z.eqb_spec m 0); try lia. rewrite fz_pos by auto. lia.
  - intros a Ha. apply Ok_inj in Ha. subst a. cbn [fst snd]. split; [exact L1|].
    destruct M3 as [->|M3]; [reflexivity|]. destruct (Z.eqb_spec m 0); lia.
Qed.

(* ---- process_event --------------------------------------------------------------------- *)
Definition Rz (r : kbd * Z) : kbd * Z := (R (fst r), snd r).
Definition Rb (r : kbd * bool) : kbd * bool := (R (fst r), snd r).
Definition okz (r : kbd * Z) : Prop := livek (fst r) /\ (0 <= snd r)%Z.
Definition okb (r : kbd * bool) : Prop := livek (fst r).
Definition sim (pe : pe_t) : Prop := forall k code pressed time, livek k -> pos time ->
  rel Rz okz (pe (R k) code pressed (fz time)) (pe k code pressed time).

Lemma sim_loop pe : sim pe -> forall fuel k evs t ts ts', livek k -> Forall (evpos pos) evs ->
  ((0 < t)%Z -> pos ts /\ ts' = fz ts) ->
  (0 <= t)%Z ->
  rel Rz okz (pe_loop pe fuel (R k) (map mv evs) t ts') (pe_loop pe fuel k evs t ts).
Proof.
  intros Hpe. induction fuel as [|fuel IH]; intros k evs t ts ts' L He Ht Hn; destruct evs as [|e rest]; cbn [map pe_loop].
  - apply (rel_Ok Rz okz (k, t)). split; auto.
  - split; [reflexivity|discriminate].
  - apply (rel_Ok Rz okz (k, t)). split; auto.
  - inversion He as [|x y He1 He2]; subst. cbn [mv ev_time ev_code ev_pressed].
    assert (E : (0 <? t)%Z && (ts' <=? fz (ev_time e))%Z = (0 <? t)%Z && (ts <=? ev_time e)%Z).
    { destruct (Z.ltb_spec 0 t) as [P|P]; [|reflexivity]. destruct (Ht P) as [P1 ->]. now rewrite fz_le. }
    rewrite E. destruct ((0 <? t)%Z && (ts <=? ev_time e)%Z) eqn:Ed.
    + apply andb_prop in Ed as [Ed _]. apply Z.ltb_lt in Ed. destruct (Ht Ed) as [P1 ->].
      eapply rel_bind; [now apply Hpe|]. intros [k1 t1] _ [L1 N1]. cbn [Rz fst snd] in *.
      apply (IH k1 (e :: rest)); auto. intros _. split; [now apply pos_add|]. symmetry. now apply fz_add.
    + eapply rel_bind; [now apply Hpe|]. intros [k1 t1] _ [L1 N1]. cbn [Rz fst snd] in *.
      apply (IH k1 rest); auto. intros _. split; [now apply pos_add|]. symmetry. now apply fz_add.
Qed.
Lemma sim_event : forall fuel, sim (process_event fuel).
Proof.
  induction fuel as [|fuel IH]; intros k code pressed time L Ht; [split; [reflexivity|discriminate]|].
  cbn [process_event]. rewrite !process_event_plan.
  assert (HL : forall k evs, livek k -> Forall (evpos pos) evs ->
    rel Rz okz (pe_loop (process_event fuel) fuel (R k) (map mv evs) 0 0) (pe_loop (process_event fuel) fuel k evs 0 0)).
  { intros k0 evs L0 He. apply sim_loop; auto; lia. }
  eapply rel_bind with (f := Rb) (I := okb).
  { eapply rel_bind with (f := mvp) (I := fun r => livek (fst r) /\ Forall (evpos pos) (replays (snd r))
        /\ match snd r with PlanReplay _ _ => pos (h_last (k_chord (fst r))) | _ => True end).
    { split; [now apply R_chord_plan|]. intros [k1 pl] E. exact (chord_livet pos pos_add _ _ _ _ _ _ E Ht L). }
    intros [k1 pl] _ [L1 [H2 H3]]. cbn [fst snd] in *. unfold mvp. cbn [fst snd].
    destruct pl as [| |i|press rest]; cbn [run_plan].
    - apply (rel_Ok Rb okb (k1, false)). exact L1.
    - apply (rel_Ok Rb okb (k1, true)). exact L1.
    - eapply rel_bind; [now apply IH|]. intros [k2 t2] _ [L2 _]. apply (rel_Ok Rb okb (k2, true)). exact L2.
    - eapply rel_bind with (f := R) (I := livek).
      { destruct press as [i|]; [|now apply rel_Ok].
        rewrite R_chord. cbn [fchord h_last]. eapply rel_bind; [now apply IH|]. intros [k2 t2] _ [L2 _]. now apply rel_Ok. }
      intros k2 _ L2. destruct rest as [evs|]; cbn [option_map]; [|split; [reflexivity|discriminate]].
      eapply rel_bind; [now apply HL|]. intros [k3 t3] _ [L3 _]. cbn [Rz fst snd] in *.
      rewrite R_set_cstate. apply (rel_Ok Rb okb (set_cstate CsInactive k3, true)). apply (inactive_livet pos). exact L3. }
  intros [k1 b1] _ L1. cbn [Rb fst snd] in *. destruct b1; [now apply R_calc|].
  unfold after_chord. eapply rel_bind with (f := Rb) (I := okb).
  { eapply rel_bind; [now apply R_pending|]. intros [k2 pl] _ [L2 H2]. cbn [fst snd] in *. unfold mvpp. cbn [fst snd].
    destruct pl as [| |evs]; cbn [run_pplan].
    - apply (rel_Ok Rb okb (k2, false)). exact L2.
    - apply (rel_Ok Rb okb (k2, true)). exact L2.
    - eapply rel_bind; [now apply HL|]. intros [k3 t3] _ [L3 _]. cbn [Rz fst snd] in *.
      apply (rel_Ok Rb okb (k3, true)). exact L3. }
  intros [k2 b2] _ L2. cbn [Rb fst snd] in *. destruct b2; [now apply R_calc|].
  eapply rel_bind; [now apply R_rest|]. intros k5 _ L5. now apply R_calc.
Qed.
Lemma sim_events fuel k evs : livek k -> Forall (evpos pos) evs ->
  rel Rz okz (kbd_process_events fuel (R k) (map mv evs)) (kbd_process_events fuel k evs).
Proof. intros L He. apply sim_loop; auto using sim_event; lia. Qed.
End Shift.
