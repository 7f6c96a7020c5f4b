(* One action at a time, from a state with nothing undecided. *)
From Verif Require Import Base Lib Keys Types MacroExec Kbd Config Steps Hist SpecTrace SpecMods SpecLookup
  SpecWf SpecHist SpecActions TraceProofs ModsProofs LookupProofs Engine Wf WfEvents ParseWf WfHist ActProofs.

Lemma cache_slot_free code : forall c i s j, (forall e, In e c -> ce_code e <> code) ->
  cache_slot c code i s = Some j ->
  s = Some j \/ (i <= j < i + length c /\ ce_code (nth (j - i) c zero_ce) = 0%N).
Proof.
  induction c as [|e r IH]; cbn [cache_slot]; intros i s j H E; [now left|].
  destruct (N.eqb_spec (ce_code e) code) as [Ec|_]; [exfalso; apply (H e); auto; now left|].
  apply IH in E; [|intros; apply H; now right].
  destruct E as [E|[E1 E2]].
  - destruct (N.eqb_spec (ce_code e) 0); [|now left].
    injection E as <-. right. rewrite Nat.sub_diag. cbn [length]. split; [lia|auto].
  - right. cbn [length]. split; [lia|]. replace (j - i) with (S (j - S i)) by lia. exact E2.
Qed.

Lemma cache_set_free k code e : unheld k code -> has_room k ->
  exists i, i < length (k_cache k) /\ ce_code (nth i (k_cache k) zero_ce) = 0%N
    /\ cache_set k code (Some e)
       = Some (set_k_cache (upd i (mkCe code (ce_d e) (ce_dl e) (ce_layer e)) (k_cache k)) k).
Proof.
  intros H1 H2. unfold cache_set.
  destruct (cache_slot_unheld code (k_cache k) 0 None H1 (or_intror H2)) as [j Hj].
  rewrite Hj. pose proof (cache_slot_free _ _ _ _ _ H1 Hj) as [Hx|[Hx Hz]]; [discriminate|].
  rewrite Nat.sub_0_r in Hz. exists j. repeat split; auto. lia.
Qed.

(* the state right after the bookkeeping for the press of a ready key *)
Definition pressed_state (k k0 : kbd) (code : N) (d : desc) (dl : nat) : Prop :=
  exists q i, k0 = set_k_cache (upd i (mkCe code d dl 0) (k_cache k)) (set_k_chord q k)
    /\ i < length (k_cache k) /\ ce_code (nth i (k_cache k) zero_ce) = 0%N
    /\ h_state q = h_state (k_chord k).

Lemma press_do fuel k code time k' t d dl :
  (forall i, (0 <= l_time (k_ls k i))%Z) -> ready k code time -> resolves k code d dl ->
  process_event fuel k code true time = Ok (k', t) ->
  exists k0 k1, pressed_state k k0 code d dl
    /\ do_desc k0 code d dl true time = Ok k1
    /\ k' = set_k_timeouts (filter (fun x => (time <? x)%Z) (k_timeouts k1)) k1.
Proof.
  intros Ht [[Hc0 Hcc] [Hi [Hu [Hd [Hh Hr]]]]] Hres H. destruct fuel; [discriminate|].
  rewrite process_event_idle in H by auto. bstep H k1 E. apply Ok_inj in H.
  unfold handle_key in E. destruct (N.eqb_spec code 0); [congruence|].
  assert (Hh' : unheld (chord_seen k code true time) code) by exact Hh.
  rewrite (cache_get_unheld _ _ Hh') in E.
  destruct (lookup_descriptor (chord_seen k code true time) code) as [d' dl'] eqn:El.
  change (lookup_descriptor (chord_seen k code true time) code)
    with (lookup_descriptor k code) in El.
  apply lookup_resolves in El; auto.
  2: { unfold is_chord_code.
       destruct (N.leb_spec K_CHORD_1 code), (N.leb_spec code K_CHORD_MAX); auto; exfalso; auto. }
  destruct (resolves_unique _ _ _ _ _ _ Hres El) as [<- <-].
  destruct (cache_set_free _ code (mkCe 0 d dl 0) Hh' Hr) as [j [H1 [H2 Hc]]].
  rewrite Hc in E. cbn [ce_d ce_dl ce_layer] in E.
  unfold calculate_main_loop_timeout in H. apply pair_equal_spec in H as [H _].
  eexists _, k1. split; [|split; [exact E|now rewrite <- H]].
  unfold pressed_state, chord_seen. eexists _, j.
  split; [reflexivity|]. split; [exact H1|]. split; [exact H2|]. reflexivity.
Qed.

Lemma release_do fuel k code time d dl k' t :
  code <> 0%N -> idle k -> unchorded k code -> nothing_due k time ->
  held k code d dl ->
  process_event fuel k code false time = Ok (k', t) ->
  exists q ca k1, h_state q = h_state (k_chord k)
    /\ do_desc (set_k_cache ca (set_k_chord q k)) code d dl false time = Ok k1
    /\ k' = set_k_timeouts (filter (fun x => (time <? x)%Z) (k_timeouts k1)) k1.
Proof.
  intros Hc0 Hi Hu Hd Hh H. destruct fuel; [discriminate|].
  rewrite process_event_idle in H by auto. bstep H k1 E. apply Ok_inj in H.
  unfold handle_key in E. destruct (N.eqb_spec code 0); [congruence|].
  destruct (cache_find_held code d dl (k_cache k) 0 Hh) as [j [Hj [H1 [H2 H3]]]].
  unfold cache_get in E. cbn [k_cache chord_seen set_k_chord] in E. rewrite Hj in E.
  unfold cache_set in E. cbn [k_cache chord_seen set_k_chord] in E.
  rewrite (cache_slot_find _ _ _ None _ Hj) in E.
  unfold cache_nth in E. cbn [k_cache chord_seen set_k_chord plus] in E. rewrite H2, H3 in E.
  unfold calculate_main_loop_timeout in H. apply pair_equal_spec in H as [H _].
  unfold chord_seen in E.
  eexists _, _, k1. split; [|split; [exact E|now rewrite <- H]]. reflexivity.
Qed.

(* one event is one batch *)
Lemma one_event fuel k code pressed time r :
  process_event fuel k code pressed time = Ok r ->
  kbd_process_events fuel k [mkKev code pressed time] = Ok r.
Proof.
  intros H. destruct fuel as [|f]; [discriminate|].
  unfold kbd_process_events. cbn [pe_loop ev_code ev_pressed ev_time].
  replace ((0 <? 0)%Z && (0 <=? time)%Z) with false by reflexivity.
  rewrite H. destruct r as [k' t]. cbn [bind]. destruct f; reflexivity.
Qed.

(* ---- C23 ------------------------------------------------------------------------ *)
Lemma min_timeout_spec ts : (forall x, In x ts -> (0 < x)%Z) ->
  (ts = [] /\ min_timeout ts = 0%Z)
  \/ (In (min_timeout ts) ts /\ (0 < min_timeout ts)%Z /\ forall y, In y ts -> (min_timeout ts <= y)%Z).
Proof.
  intros Hp. unfold min_timeout.
  set (f := fun best t : Z => if (best =? 0)%Z || (t <? best)%Z then t else best).
  assert (G : forall ts b, (0 <= b)%Z -> (forall x, In x ts -> (0 < x)%Z) ->
    (b = 0%Z /\ ts = [] /\ fold_left f ts b = 0%Z)
    \/ ((In (fold_left f ts b) ts \/ fold_left f ts b = b)
        /\ (0 < fold_left f ts b)%Z /\ (b <> 0%Z -> fold_left f ts b <= b)%Z
        /\ forall y, In y ts -> (fold_left f ts b <= y)%Z)).
  { clear Hp ts. induction ts as [|x ts IH]; intros b Hb Hp.
    - destruct (Z.eq_dec b 0) as [->|Hz]; [left; auto|right]. cbn [fold_left]. repeat split; auto; try lia.
      intros y [].
    - right. cbn [fold_left]. assert (Hx : (0 < x)%Z) by (apply Hp; now left).
      destruct (IH (f b x)) as [[E _]|[H1 [H2 [H3 H4]]]].
      { unfold f. destruct (_ || _); lia. }
      { intros; apply Hp; now right. }
      { exfalso. unfold f in E. destruct (_ || _) eqn:Eb; lia. }
      assert (Hf : (f b x <= x)%Z /\ (b <> 0 -> f b x <= b)%Z /\ (f b x = x \/ f b x = b) /\ (f b x <> 0)%Z).
      { unfold f. destruct ((b =? 0)%Z || (x <? b)%Z) eqn:Eb; lia. }
      destruct Hf as [F1 [F2 [F3 F4]]]. specialize (H3 F4).
      repeat split; auto; try lia.
      + destruct H1 as [H1|H1]; [left; now right|]. rewrite H1. destruct F3 as [->| ->]; [left; now left|now right].
      + intros y [<-|Hy]; [lia|auto]. }
  destruct (G ts 0%Z ltac:(lia) Hp) as [[_ H]|[H1 [H2 [_ H4]]]]; [now left|right].
  repeat split; auto. destruct H1 as [H1|H1]; auto. rewrite H1 in H2. lia.
Qed.

Lemma calc_spec k time k' t : (0 <= time)%Z -> calculate_main_loop_timeout k time = (k', t) ->
  (forall x, In x (k_timeouts k') <-> In x (k_timeouts k) /\ (time < x)%Z)
  /\ ((k_timeouts k' = [] /\ t = 0%Z)
      \/ exists x, In x (k_timeouts k') /\ t = (x - time)%Z /\ forall y, In y (k_timeouts k') -> (x <= y)%Z).
Proof.
  intros Ht H. unfold calculate_main_loop_timeout in H. injection H as <- <-. cbn [k_timeouts set_k_timeouts].
  assert (Hf : forall x, In x (filter (fun t => (time <? t)%Z) (k_timeouts k))
               <-> In x (k_timeouts k) /\ (time < x)%Z).
  { intros x. rewrite filter_In. split; intros [A B]; split; auto; lia. }
  split; [exact Hf|].
  destruct (min_timeout_spec (filter (fun t => (time <? t)%Z) (k_timeouts k))) as [[H1 H2]|[H1 [H2 H3]]].
  - intros x Hx. apply Hf in Hx. lia.
  - left. rewrite H2. auto.
  - right. exists (min_timeout (filter (fun t => (time <? t)%Z) (k_timeouts k))).
    split; auto. split; auto. destruct (Z.eqb_spec (min_timeout (filter (fun t => (time <? t)%Z) (k_timeouts k))) 0); lia.
Qed.

Lemma process_event_calc fuel k code pressed time k' t :
  process_event fuel k code pressed time = Ok (k', t) ->
  exists k1, calculate_main_loop_timeout k1 time = (k', t).
Proof.
  intros H. destruct fuel; [discriminate|]. cbn [process_event] in H.
  rewrite process_event_plan in H. bstep H r E. destruct r as [k1 b1]. destruct b1.
  - apply Ok_inj in H. eauto.
  - unfold after_chord in H. bstep H r2 E2. destruct r2 as [k2 b2]. destruct b2.
    + apply Ok_inj in H. eauto.
    + bstep H k5 E5. apply Ok_inj in H. eauto.
Qed.
