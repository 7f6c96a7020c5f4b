(* C06: lookup_descriptor against [resolves]; process_event when idle. *)
From Verif Require Import Base Lib Keys Types MacroExec Kbd Config Steps Hist SpecMods SpecLookup ModsProofs.

Lemma has_op_spec d : has_op d = true <-> d <> DNone.
Proof. destruct d; cbn; split; intros; congruence. Qed.

Section Lookup.
Variable k : kbd.
Variable code : N.
Hypothesis Ht : forall i, (0 <= l_time (k_ls k i))%Z.

Definition lay (i : nat) : Prop := is_active k i = true /\ has_op (ly_keymap (layer_at k i) code) = true.
Definition cmp (i : nat) : Prop :=
  is_composite (ly_type (layer_at k i)) = true
  /\ forallb (is_active k) (ly_const (layer_at k i)) = true
  /\ has_op (ly_keymap (layer_at k i) code) = true /\ 0 < length (ly_const (layer_at k i)).

(* invariant of the first scan, after the layers below n *)
Definition inv1 (n : nat) (acc : Z * desc * nat) : Prop :=
  let '(mx, d, dl) := acc in
  (acc = (0%Z, DNone, 0) /\ forall i, i < n -> ~ lay i)
  \/ (dl < n /\ lay dl /\ d = ly_keymap (layer_at k dl) code /\ mx = l_time (k_ls k dl)
      /\ forall j, j < n -> lay j ->
           (l_time (k_ls k j) < mx)%Z \/ (l_time (k_ls k j) = mx /\ j <= dl)).

Lemma scan1 n : inv1 n (fold_left (lookup_step k code) (seq 0 n) (0%Z, DNone, 0)).
Proof.
  induction n.
  - left. split; auto. lia.
  - rewrite seq_S, fold_left_app. cbn [fold_left plus].
    destruct (fold_left _ _ _) as [[mx d] dl]. unfold lookup_step.
    destruct (is_active k n) eqn:Ea; [destruct (has_op (ly_keymap (layer_at k n) code)) eqn:Eo|];
      cbn [andb].
    + destruct (Z.leb_spec mx (l_time (k_ls k n))).
      * right. repeat split; auto; try lia.
        intros j Hj Hl. destruct (Nat.eq_dec j n) as [->|]; [right; lia|].
        destruct IHn as [[E Hn]|[H1 [H2 [H3 [H4 H5]]]]].
        -- exfalso. apply (Hn j); auto. lia.
        -- subst mx. destruct (H5 j ltac:(lia) Hl); lia.
      * destruct IHn as [[E Hn]|[H1 [H2 [H3 [H4 H5]]]]].
        -- injection E as -> -> ->. specialize (Ht n). lia.
        -- right. repeat split; auto; try (apply H2); try lia.
           intros j Hj Hl. destruct (Nat.eq_dec j n) as [->|]; [left; lia|].
           apply H5; auto. lia.
    + assert (Hnl : ~ lay n) by (intros [_ Hx]; congruence).
      destruct IHn as [[E Hn]|[H1 [H2 [H3 [H4 H5]]]]].
      * left. split; auto. intros i Hi. destruct (Nat.eq_dec i n) as [->|]; auto. apply Hn; lia.
      * right. repeat split; auto; try (apply H2); try lia.
        intros j Hj Hl. destruct (Nat.eq_dec j n) as [->|]; [contradiction|]. apply H5; auto; lia.
    + assert (Hnl : ~ lay n) by (intros [Hx _]; congruence).
      destruct IHn as [[E Hn]|[H1 [H2 [H3 [H4 H5]]]]].
      * left. split; auto. intros i Hi. destruct (Nat.eq_dec i n) as [->|]; auto. apply Hn; lia.
      * right. repeat split; auto; try (apply H2); try lia.
        intros j Hj Hl. destruct (Nat.eq_dec j n) as [->|]; [contradiction|]. apply H5; auto; lia.
Qed.

Definition inv2 (d0 : desc) (dl0 : nat) (n : nat) (acc : nat * desc * nat) : Prop :=
  let '(mx, d, dl) := acc in
  (acc = (0, d0, dl0) /\ forall i, i < n -> ~ cmp i)
  \/ (dl < n /\ cmp dl /\ d = ly_keymap (layer_at k dl) code /\ mx = length (ly_const (layer_at k dl))
      /\ forall j, j < n -> cmp j ->
           length (ly_const (layer_at k j)) < mx
           \/ (length (ly_const (layer_at k j)) = mx /\ dl <= j)).

Lemma scan2 d0 dl0 n :
  inv2 d0 dl0 n (fold_left (composite_step k code) (seq 0 n) (0, d0, dl0)).
Proof.
  induction n.
  - left. split; auto. lia.
  - rewrite seq_S, fold_left_app. cbn [fold_left plus].
    destruct (fold_left _ _ _) as [[mx d] dl]. unfold composite_step.
    assert (Skip : ~ cmp n \/ length (ly_const (layer_at k n)) <= mx /\ cmp n ->
                   inv2 d0 dl0 (S n) (mx, d, dl)).
    { intros Hs. destruct IHn as [[E Hn]|[H1 [H2 [H3 [H4 H5]]]]].
      - left. split; auto. intros i Hi. destruct (Nat.eq_dec i n) as [->|]; [|apply Hn; lia].
        destruct Hs as [Hs|[Hs Hs2]]; auto. destruct Hs2 as [_ [_ [_ Hs2]]].
        injection E as -> _ _. lia.
      - right. repeat split; auto; try (apply H2); try lia.
        intros j Hj Hl. destruct (Nat.eq_dec j n) as [->|]; [|apply H5; auto; lia].
        destruct Hs as [Hs|[Hs _]]; [contradiction|]. lia. }
    destruct (is_composite _) eqn:Ec; [|apply Skip; left; intros [Hx _]; congruence].
    destruct (forallb _ _) eqn:Ef; cbn [andb];
      [|apply Skip; left; intros [_ [Hx _]]; congruence].
    destruct (has_op _) eqn:Eo; cbn [andb];
      [|apply Skip; left; intros [_ [_ [Hx _]]]; congruence].
    destruct (Nat.ltb_spec mx (length (ly_const (layer_at k n)))).
    + right. repeat split; auto; try lia.
      intros j Hj Hl. destruct (Nat.eq_dec j n) as [->|]; [right; lia|].
      destruct IHn as [[E Hn]|[H1 [H2 [H3 [H4 H5]]]]].
      * exfalso. apply (Hn j); auto. lia.
      * destruct (H5 j ltac:(lia) Hl); lia.
    + apply Skip. destruct (length (ly_const (layer_at k n))) eqn:El.
      * left. intros [_ [_ [_ Hx]]]. lia.
      * right. split; auto. repeat split; auto. lia.
Qed.

Lemma lay_spec i : i < nlayers k ->
  lay i <-> layer_active k i /\ exists d, binds k i code d.
Proof.
  intros Hi. unfold lay, binds, layer_active, is_active. rewrite has_op_spec, negb_true_iff, N.eqb_neq.
  fold (nlayers k). split; intros H.
  - repeat split; try tauto. exists (ly_keymap (layer_at k i) code). tauto.
  - destruct H as [[_ H1] [d [_ [H2 H3]]]]. split; auto. unfold layer_of in H2. unfold layer_at. congruence.
Qed.
Lemma lay_binds i d : layer_active k i -> binds k i code d -> lay i.
Proof. intros H1 H2. apply lay_spec; [apply H1|]. eauto. Qed.

Lemma cmp_binds i d : applies k i -> binds k i code d -> cmp i.
Proof.
  intros [H1 [H2 H3]] [H4 [H5 H6]]. unfold cmp. unfold is_comp in H1.
  change (layer_at k i) with (layer_of k i). rewrite H1, has_op_spec, H5. repeat split; auto.
  apply forallb_forall. intros x Hx. unfold is_active. rewrite negb_true_iff, N.eqb_neq. auto.
Qed.
Lemma cmp_applies i : i < nlayers k -> cmp i ->
  applies k i /\ binds k i code (ly_keymap (layer_at k i) code).
Proof.
  intros Hi [H1 [H2 [H3 H4]]]. split.
  - repeat split; auto.
    + unfold is_comp. change (layer_at k i) with (layer_of k i) in H1.
      destruct (ly_type _); auto; discriminate.
    + intros j Hj. rewrite forallb_forall in H2. apply H2 in Hj.
      unfold is_active in Hj. now rewrite negb_true_iff, N.eqb_neq in Hj.
  - repeat split; auto. now apply has_op_spec.
Qed.

Lemma lookup_resolves d dl :
  is_chord_code code = false ->
  lookup_descriptor k code = (d, dl) -> resolves k code d dl.
Proof.
  intros Hc. unfold lookup_descriptor. rewrite Hc.
  pose proof (scan1 (nlayers k)) as I1.
  destruct (fold_left (lookup_step k code) (seq 0 (nlayers k)) (0%Z, DNone, 0)) as [[mx d1] dl1].
  pose proof (scan2 d1 dl1 (nlayers k)) as I2.
  destruct (fold_left (composite_step k code) (seq 0 (nlayers k)) (0, d1, dl1)) as [[mx2 d2] dl2].
  destruct I2 as [[E2 Hn2]|[Hd [Hcm [-> [-> Hmax]]]]].
  - injection E2 as -> -> ->.
    assert (Hnc : forall j d', applies k j -> ~ binds k j code d').
    { intros j d' Ha Hb. apply (Hn2 j); [apply Hb|]. eapply cmp_binds; eauto. }
    destruct I1 as [[E1 Hn1]|[Hd [Hl [-> [-> Hmax]]]]].
    + injection E1 as -> -> ->. cbn [has_op]. intros H; injection H as <- <-.
      apply by_itself; auto. intros j d' Ha Hb. apply (Hn1 j); [apply Ha|]. eapply lay_binds; eauto.
    + pose proof Hl as [_ Ho]. rewrite Ho. intros H; injection H as <- <-.
      apply (lay_spec dl1 Hd) in Hl as [Hla _].
      apply by_layer; auto.
      * repeat split; auto. now apply has_op_spec.
      * intros j d' Ha Hb. apply Hmax; [apply Ha|]. eapply lay_binds; eauto.
  - pose proof Hcm as [_ [_ [Ho _]]]. rewrite Ho. intros H; injection H as <- <-.
    destruct (cmp_applies _ Hd Hcm) as [Ha Hb].
    apply by_composite; auto.
    intros j d' Ha' Hb'. apply Hmax; [apply Hb'|]. eapply cmp_binds; eauto.
Qed.
End Lookup.

(* the declarative rule determines the binding *)
Lemma resolves_unique k code d dl d' dl' :
  resolves k code d dl -> resolves k code d' dl' -> d = d' /\ dl = dl'.
Proof.
  intros H H'.
  destruct H as [d i A1 A2 A3|d i A1 A2 A3 A4|A1 A2];
  destruct H' as [d' i' B1 B2 B3|d' i' B1 B2 B3 B4|B1 B2]; auto;
    try (exfalso; eapply A1; eauto; fail); try (exfalso; eapply B1; eauto; fail);
    try (exfalso; eapply A2; eauto; fail); try (exfalso; eapply B2; eauto; fail).
  - specialize (A3 _ _ B1 B2). specialize (B3 _ _ A1 A2).
    assert (i = i') by lia. subst i'. split; auto.
    destruct A2 as [_ [<- _]], B2 as [_ [<- _]]. reflexivity.
  - specialize (A4 _ _ B2 B3). specialize (B4 _ _ A2 A3).
    assert (i = i') by lia. subst i'. split; auto.
    destruct A3 as [_ [<- _]], B3 as [_ [<- _]]. reflexivity.
Qed.

(* ---- process_event while idle ------------------------------------------------ *)
Definition chord_seen (k : kbd) (code : N) (pressed : bool) (time : Z) : kbd :=
  set_k_chord (set_h_queue (if (code =? 0)%N then [] else [mkKev code pressed time])
                 (set_h_match None (set_h_queue [] (k_chord k)))) k.

Lemma check_chord_match_none k :
  (forall i ch, i < nlayers k -> is_active k i = true -> In ch (ly_chords (layer_at k i)) ->
     chord_event_match ch (h_queue (k_chord k)) = NoMatch) ->
  check_chord_match k = (CC0, k).
Proof.
  intros H. unfold check_chord_match.
  assert (G : fold_left (check_layer1 k) (seq 0 (nlayers k)) (None, (-1)%Z, false)
              = (None, (-1)%Z, false)).
  { assert (HH : forall i, In i (seq 0 (nlayers k)) -> i < nlayers k)
      by (intros i Hi; apply in_seq in Hi; lia).
    revert HH. generalize (seq 0 (nlayers k)) as l. induction l as [|i l IH]; intros HH; auto.
    cbn [fold_left]. unfold check_layer1 at 2.
    assert (E : (if is_active k i
       then fold_left (check_chord1 (h_queue (k_chord k)) (l_time (k_ls k i)) i)
              (combine (seq 0 (length (ly_chords (layer_at k i)))) (ly_chords (layer_at k i)))
              (None, (-1)%Z, false) else (None, (-1)%Z, false)) = (@None (nat*nat), (-1)%Z, false)).
    { destruct (is_active k i) eqn:Ea; auto.
      assert (HC : forall x, In x (combine (seq 0 (length (ly_chords (layer_at k i)))) (ly_chords (layer_at k i))) ->
                   chord_event_match (snd x) (h_queue (k_chord k)) = NoMatch).
      { intros [n ch] Hx. apply in_combine_r in Hx. cbn. apply (H i); auto. apply HH; now left. }
      revert HC. generalize (combine (seq 0 (length (ly_chords (layer_at k i)))) (ly_chords (layer_at k i))).
      induction l0 as [|[n ch] l0 IH0]; intros HC; auto.
      cbn [fold_left]. unfold check_chord1 at 2.
      pose proof (HC (n, ch) (or_introl eq_refl)) as HC0. cbn [snd] in HC0. rewrite HC0.
      apply IH0. intros; apply HC; now right. }
    rewrite E. apply IH. intros; apply HH; now right. }
  now rewrite G.
Qed.

Lemma in_keys_spec c keys : in_keys c keys = true <-> In c keys.
Proof.
  unfold in_keys. rewrite existsb_exists. split.
  - intros [x [H1 H2]]. apply N.eqb_eq in H2 as ->. auto.
  - intros H. exists c. now rewrite N.eqb_refl.
Qed.

Lemma chord_of_key_none acs code i :
  (forall ac, In ac acs -> ac_active ac = true -> ~ In code (ch_keys (ac_chord ac))) ->
  chord_of_key acs code i = None.
Proof.
  revert i; induction acs as [|a r IH]; cbn [chord_of_key]; intros i H; auto.
  destruct (ac_active a && in_keys code (ch_keys (ac_chord a))) eqn:E.
  - bsplit. rewrite in_keys_spec in H1. exfalso. eapply H; eauto. now left.
  - apply IH. intros; eapply H; eauto. now right.
Qed.

Lemma handle_chord_idle pe pes k code pressed time :
  h_state (k_chord k) = CsInactive -> unchorded k code ->
  handle_chord pe pes k code pressed time = Ok (chord_seen k code pressed time, false).
Proof.
  intros Hs [Hu Hr]. unfold handle_chord.
  rewrite (chord_of_key_none _ _ _ Hr).
  assert (E0 : (if negb (code =? 0)%N && negb pressed then @None nat else None) = None)
    by (destruct (_ && _); auto).
  rewrite E0, Hs. unfold enqueue_chord_event.
  set (k0 := set_k_chord (set_h_match None (set_h_queue [] (k_chord k))) k).
  assert (E1 : (if (code =? 0)%N then Ok k0
     else if Nat.ltb (length (h_queue (k_chord k0))) MAX_QUEUE
          then Ok (set_k_chord (set_h_queue (h_queue (k_chord k0) ++ [mkKev code pressed time]) (k_chord k0)) k0)
          else Crash CChordQueue) = Ok (chord_seen k code pressed time)).
  { destruct (code =? 0)%N eqn:E; auto.
    - unfold chord_seen. rewrite E. reflexivity.
    - unfold chord_seen. rewrite E. reflexivity. }
  rewrite E1. cbn [bind].
  rewrite check_chord_match_none; auto.
  intros i ch Hi Ha Hc.
  unfold chord_seen. cbn [h_queue k_chord set_k_chord set_h_queue].
  unfold chord_event_match. destruct (code =? 0)%N; auto. cbn [chord_presses ev_pressed ev_code].
  destruct pressed; auto.
  destruct (in_keys code (ch_keys ch)) eqn:E; auto.
  apply in_keys_spec in E. exfalso. eapply Hu; eauto.
  split; auto. unfold is_active in Ha. now rewrite negb_true_iff, N.eqb_neq in Ha.
Qed.

Lemma process_event_idle fuel k code pressed time :
  idle k -> unchorded k code -> nothing_due k time ->
  process_event (S fuel) k code pressed time =
  (k1 <- handle_key (chord_seen k code pressed time) code pressed time ;;
   Ok (calculate_main_loop_timeout k1 time)).
Proof.
  intros [Hp Hs] Hu [Ho Hm]. cbn [process_event]. unfold process_event_F.
  rewrite handle_chord_idle by auto. cbn [bind].
  unfold handle_pending_key. cbn [k_pend chord_seen set_k_chord]. rewrite Hp. cbn [N.eqb bind].
  unfold expire_oneshot. cbn [k_oneshot_to chord_seen set_k_chord].
  replace (negb (k_oneshot_to k =? 0)%Z && (k_oneshot_to k <=? time)%Z) with false by lia.
  cbn [bind]. unfold run_active_macro. cbn [k_amacro chord_seen set_k_chord]. rewrite Hm.
  reflexivity.
Qed.

(* the cache as a finite map *)
Lemma cache_get_unheld k code : unheld k code -> cache_get k code = None.
Proof.
  unfold unheld, cache_get. generalize 0 as i. induction (k_cache k) as [|e r IH]; intros i H; auto.
  cbn [cache_find]. destruct (N.eqb_spec (ce_code e) code).
  - exfalso. apply (H e); auto. now left.
  - apply IH. intros; apply H; now right.
Qed.

Lemma cache_slot_unheld code : forall c i s,
  (forall e, In e c -> ce_code e <> code) ->
  (s <> None \/ exists e, In e c /\ ce_code e = 0%N) ->
  exists j, cache_slot c code i s = Some j.
Proof.
  induction c as [|e r IH]; cbn [cache_slot]; intros i s H Hs.
  - destruct Hs as [Hs|[e [[] _]]]. destruct s; eauto. congruence.
  - destruct (N.eqb_spec (ce_code e) code); eauto.
    apply IH; [intros; apply H; now right|].
    destruct (N.eqb_spec (ce_code e) 0); [left; discriminate|].
    destruct Hs as [Hs|[e' [[->|He] H0]]]; auto; try congruence. right; eauto.
Qed.

Lemma cache_set_room k code e : unheld k code -> has_room k ->
  exists c', cache_set k code (Some e) = Some (set_k_cache c' k).
Proof.
  intros H1 H2. unfold cache_set.
  destruct (cache_slot_unheld code (k_cache k) 0 None H1 (or_intror H2)) as [j Hj].
  rewrite Hj. eauto.
Qed.

Lemma cache_find_held code d dl : forall c i,
  (exists pre e post, c = pre ++ e :: post
    /\ (forall e', In e' pre -> ce_code e' <> code)
    /\ ce_code e = code /\ ce_d e = d /\ ce_dl e = dl) ->
  exists j, cache_find c code i = Some (i + j)
     /\ ce_code (nth j c zero_ce) = code /\ ce_d (nth j c zero_ce) = d /\ ce_dl (nth j c zero_ce) = dl.
Proof.
  induction c as [|x r IH]; intros i [pre [e [post [E [Hp [H1 [H2 H3]]]]]]].
  - destruct pre; discriminate.
  - cbn [cache_find]. destruct pre as [|y pre]; injection E as -> ->.
    + rewrite H1, N.eqb_refl. exists 0. rewrite Nat.add_0_r. auto.
    + destruct (N.eqb_spec (ce_code y) code) as [Hy|_].
      * exfalso. apply (Hp y); auto. now left.
      * destruct (IH (S i)) as [j [Hj Hr]].
        { exists pre, e, post. repeat split; auto. intros; apply Hp; now right. }
        exists (S j). rewrite Hj. split; [f_equal; lia|]. exact Hr.
Qed.

Lemma cache_slot_find code : forall c i s j,
  cache_find c code i = Some j -> cache_slot c code i s = Some j.
Proof.
  induction c as [|e r IH]; cbn [cache_find cache_slot]; intros i s j H; [discriminate|].
  destruct (ce_code e =? code)%N; auto.
Qed.

Lemma press_idle fuel k code time k' t :
  physical code -> idle k -> unchorded k code -> nothing_due k time ->
  unheld k code -> has_room k ->
  (forall i, (0 <= l_time (k_ls k i))%Z) ->
  process_event fuel k code true time = Ok (k', t) ->
  exists d dl k0 k1,
    resolves k code d dl
    /\ (exists q c, k0 = set_k_cache c (set_k_chord q k))
    /\ do_desc k0 code d dl true time = Ok k1
    /\ (k', t) = calculate_main_loop_timeout k1 time.
Proof.
  intros [Hc0 Hcc] Hi Hu Hd Hh Hr Ht H. destruct fuel; [discriminate|].
  rewrite process_event_idle in H by auto. bstep H k1 E. apply Ok_inj in H.
  unfold handle_key in E. destruct (N.eqb_spec code 0); [congruence|].
  assert (Hh' : unheld (chord_seen k code true time) code) by exact Hh.
  rewrite (cache_get_unheld _ _ Hh') in E.
  destruct (lookup_descriptor (chord_seen k code true time) code) as [d dl] eqn:El.
  change (lookup_descriptor (chord_seen k code true time) code)
    with (lookup_descriptor k code) in El.
  destruct (cache_set_room _ code (mkCe 0 d dl 0) Hh' Hr) as [c' Hc].
  rewrite Hc in E.
  exists d, dl, (set_k_cache c' (chord_seen k code true time)), k1. repeat split; auto.
  - apply lookup_resolves; auto. unfold is_chord_code.
    destruct (N.leb_spec K_CHORD_1 code), (N.leb_spec code K_CHORD_MAX); auto; exfalso; auto.
  - unfold chord_seen. eauto.
Qed.

Lemma release_idle fuel k code time d dl k' t :
  code <> 0%N -> idle k -> unchorded k code -> nothing_due k time ->
  held k code d dl ->
  process_event fuel k code false time = Ok (k', t) ->
  exists k0 k1,
    (exists q c, k0 = set_k_cache c (set_k_chord q k))
    /\ do_desc k0 code d dl false time = Ok k1
    /\ (k', t) = calculate_main_loop_timeout k1 time.
Proof.
  intros Hc0 Hi Hu Hd Hh H. destruct fuel; [discriminate|].
  rewrite process_event_idle in H by auto. bstep H k1 E. apply Ok_inj in H.
  unfold handle_key in E. destruct (N.eqb_spec code 0); [congruence|].
  destruct (cache_find_held code d dl (k_cache k) 0 Hh) as [j [Hj [H1 [H2 H3]]]].
  unfold cache_get in E. cbn [k_cache chord_seen set_k_chord] in E. rewrite Hj in E.
  unfold cache_set in E. cbn [k_cache chord_seen set_k_chord] in E.
  rewrite (cache_slot_find _ _ _ None _ Hj) in E.
  unfold cache_nth in E. cbn [k_cache chord_seen set_k_chord plus] in E. rewrite H2, H3 in E.
  eexists _, k1. repeat split; [|exact E|exact (eq_sym H)].
  unfold chord_seen. eauto.
Qed.

(* ---- deciding the hypotheses, for examples ------------------------------------ *)
Definition idleb (k : kbd) : bool :=
  (p_code (k_pend k) =? 0)%N && match h_state (k_chord k) with CsInactive => true | _ => false end.
Definition quietb (k : kbd) (time : Z) : bool :=
  ((k_oneshot_to k =? 0)%Z || (time <? k_oneshot_to k)%Z)
  && match k_amacro k with None => true | _ => false end.
Definition unchordedb (k : kbd) (code : N) : bool :=
  forallb (fun i => negb (is_active k i)
             || forallb (fun ch => negb (in_keys code (ch_keys ch))) (ly_chords (layer_at k i)))
          (seq 0 (nlayers k))
  && forallb (fun ac => negb (ac_active ac) || negb (in_keys code (ch_keys (ac_chord ac)))) (k_achords k).
Definition unheldb (k : kbd) (code : N) : bool := forallb (fun e => negb (ce_code e =? code)%N) (k_cache k).
Definition roomb (k : kbd) : bool := existsb (fun e => (ce_code e =? 0)%N) (k_cache k).
Definition physicalb (code : N) : bool := negb (code =? 0)%N && negb (is_chord_code code).

Lemma idleb_ok k : idleb k = true -> idle k.
Proof. unfold idleb. intros H. bsplit. split; auto. destruct (h_state (k_chord k)); auto; discriminate. Qed.
Lemma quietb_ok k t : quietb k t = true -> nothing_due k t.
Proof.
  unfold quietb. intros H. apply andb_true_iff in H as [H1 H2]. split; [lia|].
  destruct (k_amacro k); auto; discriminate.
Qed.
Lemma unchordedb_ok k c : unchordedb k c = true -> unchorded k c.
Proof.
  unfold unchordedb. intros H. apply andb_true_iff in H as [H1 H2]. rewrite forallb_forall in H1, H2. split.
  - intros i ch [Hi Ha] Hc Hin. specialize (H1 i). rewrite in_seq in H1.
    apply orb_true_iff in H1 as [H1|H1]; [| |split; [lia|exact Hi]].
    + unfold is_active in H1. rewrite negb_involutive in H1. apply N.eqb_eq in H1. contradiction.
    + rewrite forallb_forall in H1. apply H1 in Hc. apply negb_true_iff in Hc.
      apply in_keys_spec in Hin. congruence.
  - intros ac Hac Hact Hin. apply H2 in Hac. rewrite Hact in Hac. cbn in Hac.
    apply negb_true_iff in Hac. apply in_keys_spec in Hin. congruence.
Qed.
Lemma unheldb_ok k c : unheldb k c = true -> unheld k c.
Proof.
  unfold unheldb, unheld. intros H e He. rewrite forallb_forall in H. apply H in He. bsplit. auto.
Qed.
Lemma roomb_ok k : roomb k = true -> has_room k.
Proof. unfold roomb, has_room. intros H. apply existsb_exists in H as [e [H1 H2]]. bsplit. eauto. Qed.
Lemma physicalb_ok c : physicalb c = true -> physical c.
Proof. unfold physicalb, physical, is_chord_code. lia. Qed.

Definition readyb (k : kbd) (code : N) (time : Z) : bool :=
  physicalb code && idleb k && unchordedb k code && quietb k time && unheldb k code && roomb k.
Lemma readyb_ok k code time : readyb k code time = true -> ready k code time.
Proof.
  unfold readyb, ready. rewrite !andb_true_iff. intros [[[[[H1 H2] H3] H4] H5] H6].
  auto 10 using physicalb_ok, idleb_ok, unchordedb_ok, quietb_ok, unheldb_ok, roomb_ok.
Qed.

Lemma press_ready fuel k code time k' t :
  ready k code time -> (forall i, (0 <= l_time (k_ls k i))%Z) ->
  process_event fuel k code true time = Ok (k', t) ->
  exists d dl k0 k1,
    resolves k code d dl
    /\ (exists q c, k0 = set_k_cache c (set_k_chord q k))
    /\ do_desc k0 code d dl true time = Ok k1
    /\ (k', t) = calculate_main_loop_timeout k1 time.
Proof. intros [H1 [H2 [H3 [H4 [H5 H6]]]]] Ht. now apply press_idle. Qed.

Definition desc_eq_dec (a b : desc) : {a = b} + {a <> b}.
Proof. decide equality; solve [apply N.eq_dec | apply Nat.eq_dec | apply Z.eq_dec]. Defined.
Definition looksb (k : kbd) (code : N) (d : desc) (dl : nat) : bool :=
  let '(d', dl') := lookup_descriptor k code in
  (if desc_eq_dec d' d then true else false) && Nat.eqb dl' dl && negb (is_chord_code code).
Lemma looksb_ok (G : config -> Prop) c k code d dl :
  reach G c k -> looksb k code d dl = true -> resolves k code d dl.
Proof.
  unfold looksb. intros Hr H. destruct (lookup_descriptor k code) as [d' dl'] eqn:E.
  bsplit. destruct (desc_eq_dec d' d); [|discriminate]. subst.
  apply lookup_resolves; auto. apply (reach_times _ _ _ Hr).
Qed.
(* the outcome of one event *)
Definition okb {A} (r : res A) (f : A -> bool) : bool := match r with Ok a => f a | _ => false end.
Lemma okb_ok {A} (r : res A) f : okb r f = true -> exists a, r = Ok a /\ f a = true.
Proof. destruct r; cbn; intros; try discriminate. eauto. Qed.
Definition oev_eq_dec (a b : oev) : {a = b} + {a <> b}.
Proof.
  decide equality; solve [apply N.eq_dec | apply Nat.eq_dec | apply bool_dec
                         | apply (list_eq_dec N.eq_dec)].
Defined.
Definition outb (a b : list oev) : bool := if list_eq_dec oev_eq_dec a b then true else false.
Lemma outb_ok a b : outb a b = true -> a = b.
Proof. unfold outb. destruct (list_eq_dec _ _ _); auto; discriminate. Qed.

Definition heldb (k : kbd) (code : N) (d : desc) (dl : nat) : bool :=
  match cache_get k code with
  | Some i => (if desc_eq_dec (ce_d (cache_nth k i)) d then true else false)
              && Nat.eqb (ce_dl (cache_nth k i)) dl
  | None => false
  end.
Lemma cache_find_split code : forall c i j, cache_find c code i = Some j ->
  exists pre e post, c = pre ++ e :: post /\ (forall e', In e' pre -> ce_code e' <> code)
    /\ ce_code e = code /\ j = i + length pre.
Proof.
  induction c as [|x r IH]; cbn [cache_find]; intros i j H; [discriminate|].
  destruct (N.eqb_spec (ce_code x) code).
  - injection H as <-. exists [], x, r. repeat split; auto.
  - apply IH in H as [pre [e [post [-> [H1 [H2 ->]]]]]]. exists (x :: pre), e, post.
    repeat split; auto.
    + intros e' [<-|He]; auto.
    + cbn. lia.
Qed.
Lemma heldb_ok k code d dl : heldb k code d dl = true -> held k code d dl.
Proof.
  unfold heldb, held, cache_get, cache_nth. destruct (cache_find _ _ _) as [i|] eqn:E; [|discriminate].
  intros H. apply andb_true_iff in H as [H1 H2].
  apply cache_find_split in E as [pre [e [post [E [Hp [Hc ->]]]]]].
  exists pre, e, post. rewrite E in H1, H2. rewrite app_nth2, Nat.add_0_l, Nat.sub_diag in H1, H2 by lia.
  cbn [nth] in *. bsplit. destruct (desc_eq_dec (ce_d e) d); [|discriminate]. auto.
Qed.
